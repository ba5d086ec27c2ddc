(** * Properties of the schema generator: C50, C51, C64 *)
From Coq Require Import Relations.
From Verif Require Import Base Base_Proofs SMap Desc_Model Xsd_Model.

Lemma nmem_in : forall x l, nmem x l = true <-> In x l.
Proof.
  intros x l. unfold nmem. rewrite existsb_exists. split.
  - intros (y & H & E). apply beq_eq in E. now subst.
  - intros H. exists x. split; [exact H|apply beq_refl].
Qed.
Lemma nmem_false : forall x l, nmem x l = false <-> ~ In x l.
Proof. intros x l. rewrite <- nmem_in. destruct (nmem x l); split; congruence. Qed.

(** ** C50: the order of the definitions *)
Section C50.
Variable dep : name -> list name.
Definition uses (t d : name) : Prop := In d (dep t).
Notation outputType := (outputType dep).
Fixpoint go (f : nat) (ds : list name) (st : list name * list name) : option (list name * list name) :=
  match ds with
  | [] => Some st
  | d :: ds' => match outputType f st d with Some st' => go f ds' st' | None => None end
  end.
Lemma outputType_S : forall f st t, outputType (S f) st t =
  if nmem t (fst st) then Some st
  else match go f (dep t) (t :: fst st, snd st) with
       | Some (w, o) => Some (w, o ++ [t])
       | None => None
       end.
Proof.
  intros f st t. cbn [Xsd_Model.outputType]. destruct (nmem t (fst st)); [reflexivity|].
  match goal with |- match ?g (dep t) ?s with _ => _ end = _ =>
    assert (E : forall ds s', g ds s' = go f ds s') by
      (induction ds as [|d ds IH]; intros s'; cbn [go]; [reflexivity|]; destruct (Xsd_Model.outputType dep f s' d); auto)
  end.
  now rewrite E.
Qed.
Lemma outputs_go : forall f ts st, outputs dep f ts st = go f ts st.
Proof. induction ts as [|t ts IH]; intros st; cbn [outputs go]; [reflexivity|]. destruct (outputType f st t); auto. Qed.

(** written = what has been output and what is in progress *)
Definition dinv (w o S : list name) : Prop :=
  NoDup (o ++ S) /\ (forall x, In x w <-> In x (o ++ S)).
(** everything a written definition uses is written or in progress *)
Definition closed (o S : list name) : Prop := forall x d, In x o -> uses x d -> In d (o ++ S).

Definition dspec (f : nat) (t : name) : Prop := forall w o w' o' S, dinv w o S -> closed o S ->
  outputType f (w, o) t = Some (w', o') ->
  (exists ext, o' = o ++ ext /\ forall x, In x ext -> clos_refl_trans _ uses t x) /\ dinv w' o' S /\ closed o' S /\ In t (o' ++ S).
Lemma go_spec : forall f, (forall t, dspec f t) -> forall ds w o w' o' S, dinv w o S -> closed o S ->
  go f ds (w, o) = Some (w', o') ->
  (exists ext, o' = o ++ ext /\ forall x, In x ext -> exists d, In d ds /\ clos_refl_trans _ uses d x) /\
  dinv w' o' S /\ closed o' S /\ forall d, In d ds -> In d (o' ++ S).
Proof.
  intros f IH. induction ds as [|d ds IHd]; intros w o w' o' S I C H; cbn [go] in H.
  - injection H as <- <-. split; [exists []; rewrite app_nil_r; split; [reflexivity|intros x []]|]. split; [exact I|]. split; [exact C|]. intros d [].
  - destruct (outputType f (w, o) d) as [[w1 o1]|] eqn:E; [|discriminate].
    destruct (IH d w o w1 o1 S I C E) as ((e1 & -> & R1) & I1 & C1 & D1).
    destruct (IHd w1 _ w' o' S I1 C1 H) as ((e2 & -> & R2) & I2 & C2 & D2).
    split. { exists (e1 ++ e2). split; [now rewrite app_assoc|]. intros x Hx. apply in_app_or in Hx as [Hx|Hx].
             - exists d. split; [now left|auto]. - destruct (R2 x Hx) as (d' & ? & ?). exists d'. split; [now right|auto]. }
    split; [exact I2|]. split; [exact C2|]. intros x [<-|Hx]; [|auto].
    apply in_app_or in D1 as [D1|D1]; apply in_or_app; [left; apply in_or_app; now left|now right].
Qed.
Lemma output_spec : forall f t, dspec f t.
Proof.
  induction f as [|f IH]; intros t w o w' o' S I C H; [discriminate|].
  rewrite outputType_S in H. cbn [fst snd] in H. destruct (nmem t w) eqn:M.
  - injection H as <- <-. split; [exists []; rewrite app_nil_r; split; [reflexivity|intros x []]|].
    split; [exact I|]. split; [exact C|]. apply I. now apply nmem_in.
  - apply nmem_false in M.
    assert (I0 : dinv (t :: w) o (t :: S)).
    { destruct I as [N0 E0]. split.
      - apply NoDup_Add with (a := t) (l := o ++ S); [apply Add_app|]. split; [exact N0|]. now rewrite <- E0.
      - intros x. cbn [In]. rewrite E0, !in_app_iff. cbn [In]. tauto. }
    assert (C0 : closed o (t :: S)).
    { intros x d Hx Hd. specialize (C x d Hx Hd). apply in_app_or in C as [?|?]; apply in_or_app; [now left|right; now right]. }
    destruct (go f (dep t) (t :: w, o)) as [[w1 o1]|] eqn:G; [|discriminate]. injection H as <- <-.
    destruct (go_spec f IH (dep t) (t :: w) o w1 o1 (t :: S) I0 C0 G) as ((ext & -> & R) & [N1 E1] & C1 & D1).
    split. { exists (ext ++ [t]). split; [now rewrite app_assoc|]. intros x Hx. apply in_app_or in Hx as [Hx|[<-|[]]]; [|apply rt_refl].
             destruct (R x Hx) as (d & Hd & Hr). eapply rt_trans; [apply rt_step; exact Hd|exact Hr]. }
    split. { split; [rewrite <- app_assoc; exact N1|]. intros x. rewrite E1, !in_app_iff. cbn [In]. tauto. }
    split. { intros x d Hx Hd. rewrite <- app_assoc. cbn [app]. apply in_app_or in Hx as [Hx|[<-|[]]]; [exact (C1 x d Hx Hd)|].
             now apply D1. }
    apply in_or_app. left. apply in_or_app. right. now left.
Qed.

(** the fuel needed *)
Variable U : list name.
Hypothesis Uclosed : forall t d, In t U -> In d (dep t) -> In d U.
Definition todo (w : list name) : nat := length (filter (fun x => negb (nmem x w)) U).
Lemma filter_le : forall (A : Type) (p q : A -> bool) l, (forall x, p x = true -> q x = true) -> length (filter p l) <= length (filter q l).
Proof.
  induction l as [|x l IH]; intros H; cbn [filter length]; [lia|]. specialize (IH H). specialize (H x).
  destruct (p x), (q x); cbn [length]; try lia; discriminate (H eq_refl).
Qed.
Lemma filter_lt : forall (A : Type) (p q : A -> bool) l y, (forall x, p x = true -> q x = true) -> In y l -> p y = false -> q y = true ->
  length (filter p l) < length (filter q l).
Proof.
  induction l as [|x l IH]; intros y H Hy P Q; [destruct Hy|]. assert (L := filter_le _ p q l H). cbn [filter].
  destruct Hy as [->|Hy].
  - rewrite P, Q. cbn [length]. lia.
  - specialize (IH y H Hy P Q). specialize (H x). destruct (p x), (q x); cbn [length]; try lia; discriminate (H eq_refl).
Qed.
Lemma todo_mono : forall w w', incl w w' -> todo w' <= todo w.
Proof.
  intros w w' H. unfold todo. apply filter_le. intros x. rewrite !negb_true_iff, !nmem_false. intros N0 N1. apply N0, H, N1.
Qed.
Lemma todo_cons : forall t w, In t U -> ~ In t w -> todo (t :: w) < todo w.
Proof.
  intros t w H N0. unfold todo. apply filter_lt with (y := t).
  - intros x. rewrite !negb_true_iff, !nmem_false. intros N1 N2. apply N1. now right.
  - exact H. - rewrite negb_false_iff. apply nmem_in. now left. - rewrite negb_true_iff. now apply nmem_false.
Qed.
Lemma output_total : forall f w o t, In t U -> todo w < f ->
  exists w' o', outputType f (w, o) t = Some (w', o') /\ incl w w'.
Proof.
  induction f as [|f IH]; intros w o t Ht L; [lia|]. rewrite outputType_S. cbn [fst snd].
  destruct (nmem t w) eqn:M; [exists w, o; split; [reflexivity|apply incl_refl]|]. apply nmem_false in M.
  assert (G : forall ds w o, incl ds U -> todo w < f -> exists w' o', go f ds (w, o) = Some (w', o') /\ incl w w').
  { induction ds as [|d ds IHd]; intros w0 o0 Hd L0; cbn [go]; [exists w0, o0; split; [reflexivity|apply incl_refl]|].
    destruct (IH w0 o0 d) as (w1 & o1 & -> & I1); [apply Hd; now left|exact L0|].
    destruct (IHd w1 o1) as (w2 & o2 & -> & I2); [intros x Hx; apply Hd; now right| |].
    - assert (Q := todo_mono w0 w1 I1). lia.
    - exists w2, o2. split; [reflexivity|]. eapply incl_tran; eauto. }
  destruct (G (dep t) (t :: w) o) as (w1 & o1 & -> & I1).
  - intros d Hd. eapply Uclosed; eauto.
  - assert (Q := todo_cons t w Ht M). lia.
  - exists w1, (o1 ++ [t]). split; [reflexivity|]. intros x Hx. apply I1. now right.
Qed.
Lemma go_total : forall f ds w o, incl ds U -> todo w < f -> exists w' o', go f ds (w, o) = Some (w', o').
Proof.
  intros f. induction ds as [|d ds IHd]; intros w o Hd L; cbn [go]; [eauto|].
  destruct (output_total f w o d) as (w1 & o1 & -> & I1); [apply Hd; now left|exact L|].
  destruct (IHd w1 o1) as (w2 & o2 & ->); [intros x Hx; apply Hd; now right| |eauto].
  assert (Q := todo_mono w w1 I1). lia.
Qed.

(** acyclic dependencies: definitions come after those they use *)
Definition acyclic : Prop := forall t, ~ clos_trans _ uses t t.
Definition before (d t : name) (o : list name) : Prop := exists l1 l2, o = l1 ++ t :: l2 /\ In d l1.
Definition ordered (o : list name) : Prop := forall t d, In t o -> uses t d -> before d t o.
Lemma before_app : forall d t o e, before d t o -> before d t (o ++ e).
Proof. intros d t o e (l1 & l2 & -> & H). exists l1, (l2 ++ e). split; [now rewrite <- app_assoc|exact H]. Qed.
Definition ospec (f : nat) (t : name) : Prop := forall w o w' o' S, dinv w o S -> closed o S -> ordered o ->
  (forall s, In s S -> clos_trans _ uses s t) -> outputType f (w, o) t = Some (w', o') -> ordered o' /\ In t o'.
Lemma go_ordered : forall f, (forall t, ospec f t) -> forall ds w o w' o' S, dinv w o S -> closed o S -> ordered o ->
  (forall s d, In s S -> In d ds -> clos_trans _ uses s d) -> go f ds (w, o) = Some (w', o') ->
  ordered o' /\ (forall d, In d ds -> In d o') /\ incl o o'.
Proof.
  intros f IH. induction ds as [|d ds IHd]; intros w o w' o' S I C O P H; cbn [go] in H.
  - injection H as <- <-. split; [exact O|]. split; [intros d []|apply incl_refl].
  - destruct (outputType f (w, o) d) as [[w1 o1]|] eqn:E; [|discriminate].
    destruct (output_spec f d w o w1 o1 S I C E) as ((e1 & Eo & _) & I1 & C1 & _).
    destruct (IH d w o w1 o1 S I C O) as [O1 D1]; [intros s Hs; apply P; [exact Hs|now left]|exact E|].
    destruct (IHd w1 o1 w' o' S I1 C1 O1) as (O2 & D2 & L2); [intros s x Hs Hx; apply P; [exact Hs|now right]|exact H|].
    split; [exact O2|]. split; [intros x [<-|Hx]; auto|]. intros x Hx. apply L2. rewrite Eo. apply in_or_app. now left.
Qed.
Lemma output_ordered : acyclic -> forall f t, ospec f t.
Proof.
  intros A. induction f as [|f IH]; intros t w o w' o' S I C O P H; [discriminate|].
  rewrite outputType_S in H. cbn [fst snd] in H. destruct (nmem t w) eqn:M.
  - injection H as <- <-. split; [exact O|]. apply nmem_in, I in M. apply in_app_or in M as [M|M]; [exact M|]. exfalso. exact (A t (P t M)).
  - apply nmem_false in M.
    assert (I0 : dinv (t :: w) o (t :: S)).
    { destruct I as [N0 E0]. split.
      - apply NoDup_Add with (a := t) (l := o ++ S); [apply Add_app|]. split; [exact N0|]. now rewrite <- E0.
      - intros x. cbn [In]. rewrite E0, !in_app_iff. cbn [In]. tauto. }
    assert (C0 : closed o (t :: S)).
    { intros x d Hx Hd. specialize (C x d Hx Hd). apply in_app_or in C as [?|?]; apply in_or_app; [now left|right; now right]. }
    destruct (go f (dep t) (t :: w, o)) as [[w1 o1]|] eqn:G; [|discriminate]. injection H as <- <-.
    destruct (go_ordered f IH (dep t) (t :: w) o w1 o1 (t :: S) I0 C0 O) as (O1 & D1 & _).
    { intros s d [<-|Hs] Hd; [now apply t_step|]. eapply t_trans; [apply P; exact Hs|now apply t_step]. }
    { exact G. }
    split; [|apply in_or_app; right; now left].
    intros x d Hx Hd. apply in_app_or in Hx as [Hx|[<-|[]]].
    + apply before_app, O1; assumption.
    + exists o1, []. split; [reflexivity|]. now apply D1.
Qed.
End C50.

Lemma mfind_concat : forall (m : list (name * list name)) t l d, mfind bcmp t m = Some l -> In d l -> In d (concat (map snd m)).
Proof.
  induction m as [|[k v] m IH]; intros t l d F H; cbn [mfind map concat snd] in *; [discriminate|].
  destruct (bcmp t k); apply in_or_app; [left; congruence|right; eauto..].
Qed.
(** output ends for every dependency relation, cyclic or not, writes every definition once,
    and otherwise only types that these depend on *)
Theorem C50_output : forall s,
  exists o, output_order (S (length (universe s))) s = Some o /\ NoDup o /\
    (forall t, In t (map fst (defs s)) -> In t o) /\
    (forall x, In x o -> exists t, In t (map fst (defs s)) /\ clos_refl_trans _ (uses (depof s)) t x).
Proof.
  intros s. unfold output_order. rewrite outputs_go.
  assert (UC : forall t d, In t (universe s) -> In d (depof s t) -> In d (universe s)).
  { intros t d _ Hd. unfold universe. apply in_or_app. right. unfold depof in Hd.
    destruct (mfind bcmp t (deps s)) as [l|] eqn:F; [eapply mfind_concat; eauto|destruct Hd]. }
  destruct (go_total (depof s) (universe s) UC (S (length (universe s))) (map fst (defs s)) [] []) as (w & o & E).
  - intros x Hx. apply in_or_app. now left.
  - unfold todo. assert (H : forall (l : list name) p, length (filter p l) <= length l)
      by (induction l as [|x l IH]; intros p; cbn; [lia|]; specialize (IH p); destruct (p x); cbn [length]; lia).
    specialize (H (universe s) (fun x => negb (nmem x []))). lia.
  - rewrite E. exists o. split; [reflexivity|].
    destruct (go_spec (depof s) (S (length (universe s))) (output_spec (depof s) _) (map fst (defs s)) [] [] w o []) as ((ext & Eo & R) & [N0 _] & C1 & D1).
    { split; [constructor|]. intros x. cbn. tauto. } { intros x d []. } { exact E. }
    rewrite app_nil_r in N0. split; [exact N0|]. split.
    + intros t Ht. apply D1 in Ht. now rewrite app_nil_r in Ht.
    + intros x Hx. rewrite Eo in Hx. apply R. exact Hx.
Qed.
(** when the dependencies have no cycle each definition comes after those it uses *)
Theorem C50_order : forall s fuel o, acyclic (depof s) -> output_order fuel s = Some o ->
  forall t d, In t o -> In d (depof s t) -> exists l1 l2, o = l1 ++ t :: l2 /\ In d l1.
Proof.
  intros s fuel o A E t d Ht Hd. unfold output_order in E. rewrite outputs_go in E.
  destruct (go (depof s) fuel (map fst (defs s)) ([], [])) as [[w o']|] eqn:G; [|discriminate]. injection E as <-.
  destruct (go_ordered (depof s) fuel (output_ordered (depof s) A fuel) (map fst (defs s)) [] [] w o' []) as (O1 & _ & _).
  { split; [constructor|]. intros x. cbn. tauto. } { intros x y []. } { intros x y []. } { intros x y []. } { exact G. }
  exact (O1 t d Ht Hd).
Qed.
(** more fuel does not change the result *)
Theorem C50_deterministic : forall s f1 f2 o1 o2, output_order f1 s = Some o1 -> output_order f2 s = Some o2 -> o1 = o2.
Proof.
  intros s.
  assert (G : forall f1 f2, f1 <= f2 ->
     (forall t st r, Xsd_Model.outputType (depof s) f1 st t = Some r -> Xsd_Model.outputType (depof s) f2 st t = Some r)).
  { induction f1 as [|f1 IH]; intros f2 L t st r H; [discriminate|]. destruct f2 as [|f2]; [lia|].
    rewrite outputType_S in *. destruct (nmem t (fst st)); [exact H|].
    assert (Q : forall ds st r, go (depof s) f1 ds st = Some r -> go (depof s) f2 ds st = Some r).
    { induction ds as [|d ds IHd]; intros st0 r0 H0; cbn [go] in *; [exact H0|].
      destruct (Xsd_Model.outputType (depof s) f1 st0 d) as [st1|] eqn:E; [|discriminate].
      rewrite (IH f2 ltac:(lia) d st0 st1 E). now apply IHd. }
    destruct (go (depof s) f1 (depof s t) (t :: fst st, snd st)) as [[w o]|] eqn:E; [|discriminate].
    now rewrite (Q _ _ _ E). }
  assert (K : forall f1 f2 ts st r, f1 <= f2 -> outputs (depof s) f1 ts st = Some r -> outputs (depof s) f2 ts st = Some r).
  { intros f1 f2. induction ts as [|t ts IH]; intros st r L H; cbn [outputs] in *; [exact H|].
    destruct (Xsd_Model.outputType (depof s) f1 st t) as [st1|] eqn:E; [|discriminate]. rewrite (G f1 f2 L t st st1 E). now apply IH. }
  intros f1 f2 o1 o2 H1 H2. unfold output_order in *.
  destruct (outputs (depof s) f1 _ _) as [[w1 p1]|] eqn:E1; [|discriminate].
  destruct (outputs (depof s) f2 _ _) as [[w2 p2]|] eqn:E2; [|discriminate].
  destruct (Nat.le_ge_cases f1 f2) as [L|L].
  - rewrite (K f1 f2 _ _ _ L E1) in E2. congruence.
  - rewrite (K f2 f1 _ _ _ L E2) in E1. congruence.
Qed.
(** a member of a type of the schema's namespace is recorded as a dependency, and no
    operation forgets one *)
Lemma sins_in : forall x l y, In y (sins x l) <-> y = x \/ In y l.
Proof.
  induction l as [|z l IH]; intros y; cbn [sins In]; [intuition congruence|].
  destruct (bcmp x z) eqn:E; cbn [In]; rewrite ?IH; try (intuition congruence).
  apply bcmp_eq in E. subst. intuition congruence.
Qed.
Lemma addDependency_depof : forall s t x u, depof (addDependency s t (tns ++ x)) u =
  if beq u t then sins x (depof s t) else depof s u.
Proof.
  intros s t x u. unfold addDependency. change (firstn 4 (tns ++ x)) with tns. change (skipn 4 (tns ++ x)) with x.
  rewrite beq_refl. unfold depof. cbn [deps]. rewrite (mfind_mset bcmp bcmp_eq). destruct (bcmp u t) eqn:E.
  - apply bcmp_eq in E. subst. now rewrite beq_refl.
  - destruct (beq u t) eqn:B; [|reflexivity]. apply beq_eq in B. subst. now rewrite (proj2 (bcmp_eq t t) eq_refl) in E.
  - destruct (beq u t) eqn:B; [|reflexivity]. apply beq_eq in B. subst. now rewrite (proj2 (bcmp_eq t t) eq_refl) in E.
Qed.
Lemma addDependency_incl : forall s t d u, incl (depof s u) (depof (addDependency s t d) u).
Proof.
  intros s t d u. destruct (beq (firstn 4 d) tns) eqn:E.
  - apply beq_eq in E. rewrite <- (firstn_skipn 4 d), E, addDependency_depof. destruct (beq u t) eqn:B; [|apply incl_refl].
    apply beq_eq in B. subst. intros x Hx. apply sins_in. now right.
  - unfold addDependency. rewrite E. apply incl_refl.
Qed.
Theorem C50_recorded : forall s n x t l, stk s = t :: l -> complete t = false -> n <> [] ->
  In x (depof (addMember s n (tns ++ x)) (tname t)).
Proof.
  intros s n x t l H C N0. unfold addMember. destruct n as [|c n]; [congruence|]. rewrite H, C.
  rewrite addDependency_depof, beq_refl. apply sins_in. now left.
Qed.
Theorem C50_kept : forall ops s s' t, xrun ops s = XOk s' -> incl (depof s t) (depof s' t).
Proof.
  assert (St : forall s o s' t, xstep s o = XOk s' -> incl (depof s t) (depof s' t)).
  { intros s [ty d| |n mt|b| |ty d|ty d|b] s' t H; cbn [xstep] in H.
    - injection H as <-. unfold openType. destruct (mfind bcmp ty (defs s)); apply incl_refl.
    - unfold closeType in H. destruct (stk s) as [|e l]; [discriminate|]. injection H as <-. destruct (complete e); apply incl_refl.
    - injection H as <-. unfold addMember. destruct n as [|c n]; [apply incl_refl|]. destruct (stk s) as [|e l] eqn:Q; [apply incl_refl|].
      destruct (complete e); [apply incl_refl|]. eapply incl_tran; [|apply addDependency_incl]. apply incl_refl.
    - unfold addBase in H. destruct (stk s) as [|e l]; [injection H as <-; apply incl_refl|].
      destruct (complete e); [injection H as <-; apply incl_refl|]. destruct (baseClass e) as [|c b0].
      + injection H as <-. apply incl_refl.
      + destruct (beq (c :: b0) b); [injection H as <-; apply incl_refl|discriminate].
    - unfold setMixed in H. destruct (stk s) as [|e l]; [discriminate|]. destruct (complete e); [injection H as <-; apply incl_refl|].
      destruct (cfind gt (defof s (tname e))); injection H as <-; apply incl_refl.
    - injection H as <-. apply incl_refl.
    - injection H as <-. apply addDependency_incl.
    - injection H as <-. apply incl_refl. }
  induction ops as [|o ops IH]; intros s s' t H; cbn [xrun] in H; [injection H as <-; apply incl_refl|].
  destruct (xstep s o) as [s1| |] eqn:E; try discriminate. eapply incl_tran; [eapply St; exact E|eapply IH; exact H].
Qed.
(** an example with a cycle (B and C) and a type without definition (Z) *)
Example C50_ex : exists s,
  xrun [XOpen (bs "A") (bs "a"); XMember (bs "x") (bs "tns:B"); XMember (bs "z") (bs "tns:Z"); XClose;
        XOpen (bs "B") (bs "a.x"); XMember (bs "y") (bs "tns:C"); XClose;
        XOpen (bs "C") (bs "a.y"); XMember (bs "w") (bs "tns:B"); XClose] xsd0 = XOk s /\
  output_order 10 s = Some [bs "C"; bs "B"; bs "Z"; bs "A"].
Proof. eexists. split; [vm_compute; reflexivity|]. vm_compute. reflexivity. Qed.
Example C50_order_ex : exists s,
  xrun [XOpen (bs "A") (bs "a"); XMember (bs "x") (bs "tns:B"); XClose; XOpen (bs "B") (bs "a.x"); XClose] xsd0 = XOk s /\
  acyclic (depof s).
Proof.
  eexists. split; [vm_compute; reflexivity|]. intros t H.
  assert (K : forall x y, clos_trans _ (uses (depof (mkxsd [] [(bs "A", [bs "B"])] [] false))) x y -> x = bs "A" /\ y = bs "B").
  { intros x y Hxy. induction Hxy as [x y Hs|x y z H1 [-> ->] H2 [E ->]].
    - unfold uses, depof in Hs. cbn [deps mfind] in Hs. destruct (bcmp x (bs "A")) eqn:E; [|destruct Hs..].
      apply bcmp_eq in E. destruct Hs as [<-|[]]. auto.
    - vm_compute in E. discriminate. }
  apply K in H as [-> E]. vm_compute in E. discriminate.
Qed.
(** a base class is used by the definition but not recorded as a dependency *)
Theorem C50_base_refuted : exists s o, 
  xrun [XOpen (bs "A") (bs "a"); XBase (bs "tns:Z"); XClose; XOpen (bs "Z") (bs "z"); XClose] xsd0 = XOk s /\
  output_order 10 s = Some o /\ o = [bs "A"; bs "Z"].
Proof. eexists. eexists. split; [vm_compute; reflexivity|]. split; vm_compute; reflexivity. Qed.
(** output adds empty definitions for types not defined yet; they then count as defined *)
Theorem C50_output_again_refuted : exists s s' o,
  xrun [XOpen (bs "A") (bs "a"); XMember (bs "x") (bs "tns:B"); XClose] xsd0 = XOk s /\
  output_order 10 s = Some o /\
  xrun [XOpen (bs "B") (bs "b"); XMember (bs "y") (bs "xs:int"); XClose] (after_output s o) = XOk s' /\
  defof s' (bs "B") = [].
Proof.
  eexists. eexists. eexists. split; [vm_compute; reflexivity|]. split; [vm_compute; reflexivity|].
  split; [vm_compute; reflexivity|]. vm_compute. reflexivity.
Qed.
Print Assumptions C50_output.
Print Assumptions C50_order.
Print Assumptions C50_deterministic.
Print Assumptions C50_recorded.
Print Assumptions C50_kept.
Print Assumptions C50_base_refuted.
Print Assumptions C50_output_again_refuted.

(** ** C51: balanced definitions *)
(** Specification: the contents of the tags of a text (between '<' and '>') and whether the
    text ends inside one. *)
Definition lt : ascii := "<"%char.
Fixpoint emit (st : option (list ascii)) (s : list ascii) : list (list ascii) :=
  match s with
  | [] => []
  | c :: s' => match st with
               | None => if Ascii.eqb c lt then emit (Some []) s' else emit None s'
               | Some a => if Ascii.eqb c gt then rev a :: emit None s' else emit (Some (c :: a)) s'
               end
  end.
Fixpoint fin (st : option (list ascii)) (s : list ascii) : option (list ascii) :=
  match s with
  | [] => st
  | c :: s' => match st with
               | None => if Ascii.eqb c lt then fin (Some []) s' else fin None s'
               | Some a => if Ascii.eqb c gt then fin None s' else fin (Some (c :: a)) s'
               end
  end.
Inductive tag := TOpen (n : list ascii) | TClose (n : list ascii) | TEmpty (n : list ascii).
Fixpoint word (s : list ascii) : list ascii :=
  match s with [] => [] | c :: s' => if Ascii.eqb c " "%char then [] else c :: word s' end.
Definition slash : ascii := "/"%char.
Definition classify (c : list ascii) : tag :=
  match c with
  | "/"%char :: r => TClose r
  | _ => if Ascii.eqb (last c " "%char) slash then TEmpty (word (removelast c)) else TOpen (word c)
  end.
Definition SEQ := bs "xs:sequence". Definition CT := bs "xs:complexType".
Definition EXT := bs "xs:extension". Definition CC := bs "xs:complexContent".
(** elements have to be in a sequence; every end tag closes the last tag opened *)
Fixpoint chk (st : list (list ascii)) (ts : list tag) : option (list (list ascii)) :=
  match ts with
  | [] => Some st
  | TOpen n :: ts' => chk (n :: st) ts'
  | TClose n :: ts' => match st with m :: st' => if beq n m then chk st' ts' else None | [] => None end
  | TEmpty n :: ts' => if beq n (bs "xs:element")
                       then match st with m :: _ => if beq m SEQ then chk st ts' else None | [] => None end
                       else chk st ts'
  end.
Definition tags (s : list ascii) : list tag := map classify (emit None s).
Definition balanced (s : list ascii) : Prop := fin None s = None /\ chk [] (tags s) = Some [].

Definition cleanc (c : ascii) : bool := negb (Ascii.eqb c lt) && negb (Ascii.eqb c gt).
Definition clean (s : list ascii) : Prop := forallb cleanc s = true.

Lemma emit_app : forall a st b, emit st (a ++ b) = emit st a ++ emit (fin st a) b.
Proof.
  induction a as [|c a IH]; intros st b; cbn [app emit fin]; [reflexivity|]. destruct st as [x|].
  - destruct (Ascii.eqb c gt); [cbn [app]; now rewrite IH|apply IH].
  - destruct (Ascii.eqb c lt); apply IH.
Qed.
Lemma fin_app : forall a st b, fin st (a ++ b) = fin (fin st a) b.
Proof.
  induction a as [|c a IH]; intros st b; cbn [app fin]; [reflexivity|]. destruct st as [x|].
  - destruct (Ascii.eqb c gt); apply IH.
  - destruct (Ascii.eqb c lt); apply IH.
Qed.
Lemma clean_out : forall u, clean u -> emit None u = [] /\ fin None u = None.
Proof.
  unfold clean. induction u as [|c u IH]; intros H; cbn [emit fin forallb] in *; [auto|].
  apply andb_true_iff in H as [H1 H2]. unfold cleanc in H1. apply andb_true_iff in H1 as [H1 _].
  destruct (Ascii.eqb c lt); [discriminate|auto].
Qed.
Lemma clean_in : forall u a, clean u -> emit (Some a) u = [] /\ fin (Some a) u = Some (rev u ++ a).
Proof.
  unfold clean. induction u as [|c u IH]; intros a H; cbn [emit fin forallb] in *; [auto|].
  apply andb_true_iff in H as [H1 H2]. unfold cleanc in H1. apply andb_true_iff in H1 as [_ H1].
  destruct (Ascii.eqb c gt); [discriminate|]. destruct (IH (c :: a) H2) as [-> ->]. cbn [rev]. now rewrite <- app_assoc.
Qed.
Lemma line_tag : forall ws c, clean ws -> clean c -> forall t, clean t ->
  emit None (ws ++ lt :: c ++ gt :: t) = [c] /\ fin None (ws ++ lt :: c ++ gt :: t) = None.
Proof.
  intros ws c W C t T. rewrite emit_app, fin_app. destruct (clean_out ws W) as [-> ->]. cbn [app].
  change (emit None (lt :: c ++ gt :: t)) with (emit (Some []) (c ++ gt :: t)).
  change (fin None (lt :: c ++ gt :: t)) with (fin (Some []) (c ++ gt :: t)).
  rewrite emit_app, fin_app. destruct (clean_in c [] C) as [-> ->]. cbn [app]. rewrite app_nil_r.
  change (emit (Some (rev c)) (gt :: t)) with (rev (rev c) :: emit None t).
  change (fin (Some (rev c)) (gt :: t)) with (fin None t). destruct (clean_out t T) as [-> ->]. now rewrite rev_involutive.
Qed.
Lemma clean_app : forall a b, clean a -> clean b -> clean (a ++ b).
Proof. unfold clean. intros. now rewrite forallb_app, H, H0. Qed.
Lemma chk_app : forall a st b, chk st (a ++ b) = match chk st a with Some st' => chk st' b | None => None end.
Proof.
  induction a as [|[n|n|n] a IH]; intros st b; cbn [app chk]; [reflexivity|apply IH|..].
  - destruct st as [|m st]; [reflexivity|]. destruct (beq n m); [apply IH|reflexivity].
  - destruct (beq n (bs "xs:element")); [|apply IH]. destruct st as [|m st]; [reflexivity|]. destruct (beq m SEQ); [apply IH|reflexivity].
Qed.
Lemma tags_app : forall a b, fin None a = None -> tags (a ++ b) = tags a ++ tags b.
Proof. intros a b H. unfold tags. now rewrite emit_app, H, map_app. Qed.

(** the tag of a line [ws <c> newline] *)
Lemma one_tag : forall s ws c t, s = ws ++ lt :: c ++ gt :: t -> clean ws -> clean c -> clean t ->
  tags s = [classify c] /\ fin None s = None.
Proof. intros s ws c t -> W C T. unfold tags. destruct (line_tag ws c W C t T) as [-> ->]. auto. Qed.
Ltac cl := repeat first [assumption | reflexivity | apply clean_app | (match goal with |- clean (if ?b then _ else _) => destruct b end)].
Ltac asc := unfold quot, nl; cbn [bs list_ascii_of_string app]; repeat (rewrite <- app_assoc; cbn [app]); reflexivity.

Lemma classify_empty : forall c x w, last (x :: c) " "%char = slash -> Ascii.eqb x slash = false -> word (removelast (x :: c)) = w -> classify (x :: c) = TEmpty w.
Proof.
  intros c x w L X Wd. unfold classify. destruct (ascii_dec x slash) as [->|N0]; [discriminate|].
  rewrite L, Wd. change (Ascii.eqb slash slash) with true. cbv iota.
  destruct x as [[] [] [] [] [] [] [] []]; try reflexivity. exfalso. apply N0. reflexivity.
Qed.
Lemma classify_open : forall c x w, Ascii.eqb (last (x :: c) " "%char) slash = false -> Ascii.eqb x slash = false -> word (x :: c) = w -> classify (x :: c) = TOpen w.
Proof.
  intros c x w L X Wd. unfold classify. rewrite L, Wd.
  destruct x as [[] [] [] [] [] [] [] []]; try reflexivity. discriminate.
Qed.
Lemma last_app1 : forall (a : list ascii) x d, last (a ++ [x]) d = x.
Proof. intros. apply last_last. Qed.

Lemma elem_tags : forall n mt o, clean n -> clean mt ->
  tags (elem_line n mt o) = [TEmpty (bs "xs:element")] /\ fin None (elem_line n mt o) = None.
Proof.
  intros n mt o N0 M.
  pose (body := bs " name=" ++ quot ++ n ++ quot ++ bs " type=" ++ quot ++ mt ++
                (if o then quot ++ bs " minOccurs=" ++ quot ++ bs "0" else []) ++ quot).
  destruct (one_tag (elem_line n mt o) (bs "      ") (bs "xs:element" ++ body ++ [slash]) nl) as [-> ->].
  - unfold elem_line, body. destruct o; asc.
  - reflexivity. - unfold body. cl. - reflexivity.
  - split; [|reflexivity]. f_equal. change (bs "xs:element" ++ body ++ [slash]) with ("x"%char :: (bs "s:element" ++ body ++ [slash])).
    apply classify_empty; [|reflexivity|].
    + change ("x"%char :: bs "s:element" ++ body ++ [slash]) with (bs "xs:element" ++ body ++ [slash]). rewrite app_assoc. apply last_last.
    + change ("x"%char :: bs "s:element" ++ body ++ [slash]) with (bs "xs:element" ++ body ++ [slash]). rewrite app_assoc, removelast_last. reflexivity.
Qed.
Lemma base_tags : forall b, clean b -> tags (base_lines b) = [TOpen CC; TOpen EXT] /\ fin None (base_lines b) = None.
Proof.
  intros b B. unfold base_lines.
  set (l2 := bs "      <xs:extension base=" ++ quot ++ b ++ quot ++ bs ">" ++ nl).
  pose (c := bs "xs:extension base=" ++ quot ++ b ++ quot).
  assert (H2 : tags l2 = [TOpen EXT] /\ fin None l2 = None).
  { destruct (one_tag l2 (bs "      ") c nl) as [-> ->].
    - unfold l2, c. asc. - reflexivity. - unfold c. cl. - reflexivity.
    - split; [|reflexivity]. f_equal. unfold c. change (bs "xs:extension base=" ++ quot ++ b ++ quot) with ("x"%char :: bs "s:extension base=" ++ quot ++ b ++ quot).
      apply classify_open; [|reflexivity|reflexivity].
      change ("x"%char :: bs "s:extension base=" ++ quot ++ b ++ quot) with (bs "xs:extension base=" ++ quot ++ b ++ quot).
      rewrite !app_assoc. unfold quot. rewrite last_last. reflexivity. }
  change (bs "      <xs:complexContent>" ++ nl ++ l2) with ((bs "      <xs:complexContent>" ++ nl) ++ l2).
  rewrite tags_app by reflexivity. rewrite fin_app. change (fin None (bs "      <xs:complexContent>" ++ nl)) with (@None (list ascii)).
  destruct H2 as [-> ->]. split; reflexivity.
Qed.

(** Specification of the calls: types are closed in the reverse order in which they were
    opened, a base class comes before the members, names contain no angle brackets and the
    ready made definitions are balanced.  [ph]: for every open type, whether it has members. *)
Fixpoint proper (ops : list xop) (ph : list bool) : Prop :=
  match ops with
  | [] => ph = []
  | XOpen t _ :: ops' => clean t /\ proper ops' (false :: ph)
  | XClose :: ops' => match ph with [] => False | _ :: ph' => proper ops' ph' end
  | XMember n mt :: ops' => clean n /\ clean mt /\ proper ops' (match ph with [] => [] | _ :: ph' => true :: ph' end)
  | XBase b :: ops' => b <> [] /\ clean b /\ match ph with true :: _ => False | _ => proper ops' ph end
  | XMixed :: ops' => ph <> [] /\ proper ops' ph
  | XDefine _ d :: ops' => balanced d /\ proper ops' ph
  | XDep _ _ :: ops' => proper ops' ph
  | XOpt _ :: ops' => proper ops' ph
  end.

Definition ostack (t : tba) : list (list ascii) :=
  (if seqAdded t then [SEQ] else []) ++ (match baseClass t with [] => [] | _ => [EXT; CC] end) ++ [CT].
Definition opendef (t : tba) (d : list ascii) : Prop :=
  exists c rest, d = bs "  <xs:complexType " ++ c ++ gt :: rest /\ clean c /\ c <> [] /\
    Ascii.eqb (last c " "%char) slash = false /\ fin None rest = None /\ chk [CT] (tags rest) = Some (ostack t).
Definition XI (s : xsd) (ph : list bool) : Prop :=
  (forall t, In t (stk s) -> complete t = false -> clean (tname t) /\ exists d, mfind bcmp (tname t) (defs s) = Some d /\ opendef t d) /\
  (forall n d, mfind bcmp n (defs s) = Some d -> (forall t, In t (stk s) -> complete t = false -> tname t <> n) -> balanced d) /\
  NoDup (map tname (filter (fun t => negb (complete t)) (stk s))) /\
  Forall2 (fun p t => complete t = false -> seqAdded t = true -> p = true) ph (stk s).

Lemma opendef_tags : forall t d, opendef t d -> fin None d = None /\ chk [] (tags d) = Some (ostack t).
Proof.
  intros t d (c & rest & -> & C & N0 & L & F & K).
  assert (E : bs "  <xs:complexType " ++ c ++ gt :: rest = (bs "  " ++ lt :: (bs "xs:complexType " ++ c) ++ gt :: []) ++ rest).
  { rewrite <- !app_assoc. cbn [app]. rewrite <- !app_assoc. reflexivity. }
  rewrite E. destruct (one_tag (bs "  " ++ lt :: (bs "xs:complexType " ++ c) ++ gt :: []) (bs "  ") (bs "xs:complexType " ++ c) [] eq_refl) as [T1 F1]; [reflexivity|cl|reflexivity|].
  rewrite tags_app by exact F1. rewrite fin_app, F1, T1. split; [exact F|].
  assert (Q : classify (bs "xs:complexType " ++ c) = TOpen CT).
  { change (bs "xs:complexType " ++ c) with ("x"%char :: bs "s:complexType " ++ c). apply classify_open; [|reflexivity|reflexivity].
    change ("x"%char :: bs "s:complexType " ++ c) with (bs "xs:complexType " ++ c).
    destruct (exists_last N0) as (c1 & x & ->). rewrite app_assoc, last_last. now rewrite last_last in L. }
  rewrite Q. cbn [app chk]. exact K.
Qed.
Lemma opendef_more : forall t t' d more, opendef t d -> fin None more = None -> chk (ostack t) (tags more) = Some (ostack t') -> opendef t' (d ++ more).
Proof.
  intros t t' d more (c & rest & -> & C & N0 & L & F & K) Fm Km. exists c, (rest ++ more). rewrite <- !app_assoc. cbn [app].
  repeat split; try assumption.
  - now rewrite fin_app, F.
  - now rewrite tags_app, chk_app, K by exact F.
Qed.
Lemma opendef_head : forall t c c' rest, opendef t (bs "  <xs:complexType " ++ c ++ gt :: rest) -> clean c -> clean c' -> c' <> [] ->
  Ascii.eqb (last c' " "%char) slash = false -> opendef t (bs "  <xs:complexType " ++ c' ++ gt :: rest).
Proof.
  intros t c c' rest (c0 & r0 & E & C0 & N0 & L0 & F & K) C C' N1 L. exists c', rest. repeat split; try assumption.
  - assert (r0 = rest) as <-; [|exact F].
    apply app_inv_head in E. revert c0 C0 E N0 L0. clear - C. unfold clean in *.
    induction c as [|x c IH]; intros [|y c0] C0 E N0 L0; cbn [app] in E.
    + congruence. + injection E as <- E. cbn in C0. discriminate. + injection E as -> E. cbn in C. discriminate.
    + injection E as <- E. cbn [forallb] in C, C0. apply andb_true_iff in C as [_ C]. apply andb_true_iff in C0 as [_ C0].
      clear IH N0 L0. revert c C c0 C0 E. induction c as [|x1 c IH]; intros C [|y1 c0] C0 E; cbn [app] in E.
      * congruence. * injection E as <- E. cbn in C0. discriminate. * injection E as -> E. cbn in C. discriminate.
      * injection E as <- E. cbn [forallb] in C, C0. apply andb_true_iff in C as [_ C]. apply andb_true_iff in C0 as [_ C0]. eauto.
  - assert (r0 = rest) as <-; [|exact K].
    apply app_inv_head in E. clear - C C0 E. revert c C c0 C0 E. unfold clean. induction c as [|x1 c IH]; intros C [|y1 c0] C0 E; cbn [app] in E.
      * congruence. * injection E as <- E. cbn in C0. discriminate. * injection E as -> E. cbn in C. discriminate.
      * injection E as <- E. cbn [forallb] in C, C0. apply andb_true_iff in C as [_ C]. apply andb_true_iff in C0 as [_ C0]. eauto.
Qed.
Lemma cfind_gt : forall a b, (forall x, In x a -> Ascii.eqb x gt = false) -> cfind gt (a ++ gt :: b) = Some (length a).
Proof.
  induction a as [|x a IH]; intros b H; cbn [app cfind length]; [reflexivity|].
  rewrite (H x) by now left. rewrite IH; [reflexivity|]. intros y Hy. apply H. now right.
Qed.
Lemma head_gt : forall c, clean c -> forall x, In x (bs "  <xs:complexType " ++ c) -> Ascii.eqb x gt = false.
Proof.
  intros c C x H. apply in_app_iff in H as [H|H].
  - cbn in H. repeat (destruct H as [<-|H]; [reflexivity|]). destruct H.
  - unfold clean in C. rewrite forallb_forall in C. specialize (C x H). unfold cleanc in C.
    apply andb_true_iff in C as [_ C]. now destruct (Ascii.eqb x gt).
Qed.
Lemma mfind_bset : forall n k (d : list ascii) m, mfind bcmp n (mset bcmp k d m) = if beq n k then Some d else mfind bcmp n m.
Proof.
  intros. rewrite (mfind_mset bcmp bcmp_eq). unfold beq. destruct (bcmp n k) eqn:E; reflexivity.
Qed.

Lemma XI_top : forall s p ph t l t' d' p', XI s (p :: ph) -> stk s = t :: l -> complete t = false -> complete t' = false ->
  tname t' = tname t -> opendef t' d' -> (seqAdded t' = true -> p' = true) ->
  XI (settop (setdef s (tname t) d') t') (p' :: ph).
Proof.
  intros s p ph t l t' d' p' (I1 & I2 & I3 & I4) Q C C' Nm O P. unfold settop, setdef, XI. cbn [stk defs]. rewrite Q in *.
  cbn [filter map] in I3. rewrite C in I3. cbn [negb map] in I3. apply NoDup_cons_iff in I3 as [U I3].
  repeat split.
  - destruct H as [<-|H].
    + rewrite Nm. apply (I1 t); [now left|exact C].
    + apply (I1 t0); [now right|exact H0].
  - destruct H as [<-|H].
    + exists d'. rewrite Nm. rewrite mfind_bset, beq_refl. auto.
    + destruct (I1 t0 (or_intror H) H0) as (_ & d & M & D). exists d. rewrite mfind_bset.
      destruct (beq (tname t0) (tname t)) eqn:E; [|auto]. apply beq_eq in E. exfalso. apply U. rewrite <- E.
      apply in_map. apply filter_In. split; [exact H|]. now rewrite H0.
  - rewrite mfind_bset in H. destruct (beq n (tname t)) eqn:E.
    + apply beq_eq in E. exfalso. apply (H0 t'); [now left|exact C'|congruence].
    + apply (I2 n d H). intros t0 [<-|H1] H2; [|apply H0; [now right|exact H2]]. intros Z; rewrite <- Z, beq_refl in E; discriminate.
  - rewrite mfind_bset in H. destruct (beq n (tname t)) eqn:E.
    + apply beq_eq in E. exfalso. apply (H0 t'); [now left|exact C'|congruence].
    + apply (I2 n d H). intros t0 [<-|H1] H2; [|apply H0; [now right|exact H2]]. intros Z; rewrite <- Z, beq_refl in E; discriminate.
  - cbn [filter map]. rewrite C'. cbn [negb map]. rewrite Nm. constructor; assumption.
  - inversion I4; subst. constructor; [intros _; exact P|assumption].
Qed.
Lemma XI_same : forall s s' ph, XI s ph -> defs s' = defs s -> stk s' = stk s -> XI s' ph.
Proof. intros s s' ph I D K. unfold XI in *. now rewrite D, K. Qed.
Lemma addDependency_same : forall s t d, defs (addDependency s t d) = defs s /\ stk (addDependency s t d) = stk s.
Proof. intros. unfold addDependency. destruct (beq _ _); auto. Qed.

Lemma seq_tags : tags (bs "    <xs:sequence>" ++ nl) = [TOpen SEQ] /\ fin None (bs "    <xs:sequence>" ++ nl) = None.
Proof. split; reflexivity. Qed.
Lemma XI_incomplete : forall s ph t, XI s ph -> In t (stk s) -> complete t = false ->
  clean (tname t) /\ opendef t (defof s (tname t)).
Proof.
  intros s ph t (I1 & _) H C. destruct (I1 t H C) as (N0 & d & M & D). split; [exact N0|]. unfold defof. now rewrite M.
Qed.
Lemma XI_member : forall s ph n mt, XI s ph -> clean n -> clean mt ->
  XI (addMember s n mt) (match ph with [] => [] | _ :: p => true :: p end).
Proof.
  intros s ph n mt I N0 M. assert (I4 := proj2 (proj2 (proj2 I))).
  assert (K : XI s (match ph with [] => [] | _ :: p => true :: p end)).
  { destruct I as (I1 & I2 & I3 & _). repeat split; try assumption; [apply I1; assumption..|apply (I2 n0 d H H0)|apply (I2 n0 d H H0)|].
    inversion I4 as [|p t ph' l Hp Hl]; constructor; auto. }
  unfold addMember. destruct n as [|c n]; [exact K|]. destruct (stk s) as [|t l] eqn:Q; [exact K|].
  destruct (complete t) eqn:C; [exact K|]. destruct ph as [|p ph]; [inversion I4|].
  eapply XI_same; [|apply addDependency_same|apply addDependency_same].
  destruct (XI_incomplete s _ t I) as [Nt O]; [rewrite Q; now left|exact C|].
  destruct (elem_tags (c :: n) mt (opt s) N0 M) as [T F].
  eapply XI_top; [exact I|exact Q|exact C|reflexivity|reflexivity| |reflexivity].
  destruct (seqAdded t) eqn:SA.
  - eapply opendef_more; [exact O|exact F|]. rewrite T. unfold ostack. cbn [seqAdded baseClass]. rewrite SA. reflexivity.
  - rewrite <- app_assoc. eapply opendef_more; [exact O| |].
    + rewrite fin_app. destruct seq_tags as [_ ->]. exact F.
    + rewrite tags_app by reflexivity. rewrite T. destruct seq_tags as [-> _]. unfold ostack. cbn [seqAdded baseClass]. rewrite SA. reflexivity.
Qed.
Lemma XI_base : forall s ph b s', XI s ph -> b <> [] -> clean b -> match ph with true :: _ => False | _ => True end ->
  addBase s b = XOk s' -> XI s' ph.
Proof.
  intros s ph b s' I B0 B P H. assert (I4 := proj2 (proj2 (proj2 I))). unfold addBase in H.
  destruct (stk s) as [|t l] eqn:Q; [now injection H as <-|].
  destruct (complete t) eqn:C; [now injection H as <-|]. destruct ph as [|[] ph]; [inversion I4|destruct P|].
  destruct (baseClass t) as [|b1 bt] eqn:BC.
  2:{ destruct (beq (b1 :: bt) b); [now injection H as <-|discriminate]. }
  injection H as <-. assert (SA : seqAdded t = false).
  { inversion I4; subst. destruct (seqAdded t); [|reflexivity]. now specialize (H2 C eq_refl). }
  destruct (XI_incomplete s _ t I) as [Nt O]; [rewrite Q; now left|exact C|].
  eapply XI_top; [exact I|exact Q|exact C|reflexivity|reflexivity| |cbn [seqAdded]; congruence].
  destruct (base_tags b B) as [T F].
  assert (O1 : opendef t (if beq b (bs "xs::string") then mixed1 (defof s (tname t)) else defof s (tname t))).
  { destruct (beq b (bs "xs::string")); [|exact O]. assert (O' := O). destruct O as (c & rest & E & Cc & N0 & L & _). rewrite E in *.
    unfold mixed1. rewrite app_assoc. rewrite (cfind_gt (bs "  <xs:complexType " ++ c) rest (head_gt c Cc)).
    destruct (exists_last N0) as (c1 & x & ->). rewrite app_assoc. rewrite app_length. cbn [length].
    rewrite Nat.add_1_r. cbn [Nat.add].
    pose (h := bs "  <xs:complexType " ++ c1). fold h.
    replace ((h ++ [x]) ++ gt :: rest) with (h ++ x :: gt :: rest) by (now rewrite <- app_assoc).
    rewrite firstn_app, Nat.sub_diag, firstn_all, firstn_O, app_nil_r.
    assert (S2 : skipn (S (length h)) (h ++ x :: gt :: rest) = gt :: rest).
    { replace (h ++ x :: gt :: rest) with ((h ++ [x]) ++ gt :: rest) by (now rewrite <- app_assoc).
      replace (S (length h)) with (length (h ++ [x])) by (rewrite app_length; cbn; lia).
      rewrite skipn_app, Nat.sub_diag, skipn_all. reflexivity. }
    rewrite S2. unfold h. rewrite <- !app_assoc.
    replace (c1 ++ bs " mixed=" ++ quot ++ bs "true" ++ quot ++ bs " " ++ gt :: rest)
      with ((c1 ++ bs " mixed=" ++ quot ++ bs "true" ++ quot ++ bs " ") ++ gt :: rest) by (rewrite <- !app_assoc; reflexivity).
    unfold clean in Cc. rewrite forallb_app in Cc. apply andb_true_iff in Cc as [Cc Cx].
    eapply opendef_head; [exact O'| | | |].
    - unfold clean. now rewrite forallb_app, Cc, Cx.
    - unfold clean. now rewrite forallb_app, Cc.
    - intro Q0. apply app_eq_nil in Q0 as [_ Q0]. discriminate.
    - change (bs " ") with [" "%char]. rewrite !app_assoc. rewrite last_last. reflexivity. }
  eapply opendef_more; [exact O1|exact F|]. rewrite T. unfold ostack. cbn [seqAdded baseClass]. rewrite SA, BC.
  destruct b; [congruence|]. reflexivity.
Qed.
Lemma XI_mixed : forall s ph s', XI s ph -> setMixed s = XOk s' -> XI s' ph.
Proof.
  intros s ph s' I H. assert (I4 := proj2 (proj2 (proj2 I))). unfold setMixed in H.
  destruct (stk s) as [|t l] eqn:Q; [discriminate|]. destruct (complete t) eqn:C; [now injection H as <-|].
  destruct (XI_incomplete s _ t I) as [Nt O]; [rewrite Q; now left|exact C|].
  destruct ph as [|p ph]; [inversion I4|].
  destruct O as (c & rest & E & Cc & R). rewrite E in H. rewrite app_assoc in H.
  rewrite (cfind_gt (bs "  <xs:complexType " ++ c) rest (head_gt c Cc)) in H.
  assert (s' = settop (setdef s (tname t) (bs "  <xs:complexType " ++ (bs "mixed=" ++ quot ++ bs "true" ++ quot ++ bs " name=" ++ quot ++ tname t ++ quot) ++ gt :: rest)) t).
  { assert (S2 : skipn (S (length (bs "  <xs:complexType " ++ c))) ((bs "  <xs:complexType " ++ c) ++ gt :: rest) = rest).
    { replace ((bs "  <xs:complexType " ++ c) ++ gt :: rest) with (((bs "  <xs:complexType " ++ c) ++ [gt]) ++ rest) by (now rewrite <- app_assoc).
      replace (S (length (bs "  <xs:complexType " ++ c))) with (length ((bs "  <xs:complexType " ++ c) ++ [gt])) by (rewrite (app_length (_ ++ _)); cbn [length]; lia).
      rewrite skipn_app, Nat.sub_diag, skipn_all. reflexivity. }
    rewrite S2 in H. injection H as <-. unfold settop, setdef. cbn [stk defs deps opt]. rewrite Q. f_equal. f_equal.
    cbn [bs list_ascii_of_string app quot]. repeat (rewrite <- app_assoc; cbn [app]). reflexivity. }
  subst s'. eapply XI_top; [exact I|exact Q|exact C|exact C|reflexivity| |].
  - eapply (opendef_head t c); [exists c, rest; split; [reflexivity|split; [exact Cc|exact R]]|exact Cc| | |].
    + cl.
    + discriminate.
    + rewrite !app_assoc. unfold quot at 4. rewrite last_last. reflexivity.
  - intros SA. inversion I4; subst. auto.
Qed.
Lemma XI_open : forall s ph type d, XI s ph -> clean type -> XI (openType s type d) (false :: ph).
Proof.
  intros s ph type d (I1 & I2 & I3 & I4) Ct. unfold openType. destruct (mfind bcmp type (defs s)) as [d0|] eqn:M.
  - unfold XI. cbn [stk defs]. refine (conj _ (conj _ (conj _ _))).
    + intros t [<-|H] C; [discriminate|]. exact (I1 t H C).
    + intros n d1 H H0. apply (I2 n d1 H). intros t Ht. apply H0. now right.
    + exact I3.
    + constructor; [discriminate|exact I4].
  - unfold XI, setdef. cbn [stk defs]. refine (conj _ (conj _ (conj _ _))).
    + intros t [<-|H] C.
      * cbn [tname]. split; [exact Ct|]. exists (bs "  <xs:complexType name=" ++ quot ++ type ++ quot ++ bs ">" ++ nl).
        rewrite mfind_bset, beq_refl. split; [reflexivity|]. exists (bs "name=" ++ quot ++ type ++ quot), nl.
        refine (conj _ (conj _ (conj _ (conj _ (conj _ _))))).
        -- unfold quot, nl. cbn [bs list_ascii_of_string app]. repeat (rewrite <- app_assoc; cbn [app]). reflexivity.
        -- cl.
        -- discriminate.
        -- rewrite !app_assoc. unfold quot at 2. rewrite last_last. reflexivity.
        -- reflexivity.
        -- reflexivity.
      * destruct (I1 t H C) as (A & d1 & B & D). split; [exact A|]. exists d1. split; [|exact D]. rewrite mfind_bset.
        destruct (beq (tname t) type) eqn:E; [|exact B]. apply beq_eq in E. congruence.
    + intros n d1 H H0. rewrite mfind_bset in H. destruct (beq n type) eqn:E.
      * apply beq_eq in E. exfalso. exact (H0 _ (or_introl eq_refl) eq_refl (eq_sym E)).
      * apply (I2 n d1 H). intros t Ht. apply H0. now right.
    + cbn [filter complete negb map tname]. constructor; [|exact I3]. intro H. apply in_map_iff in H as (t & E & Ht).
      apply filter_In in Ht as [Ht C]. destruct (I1 t Ht) as (_ & d1 & B & _); [now destruct (complete t)|]. congruence.
    + constructor; [cbn; discriminate|exact I4].
Qed.
Lemma close_balanced : forall t d, opendef t d -> balanced (d ++ close_text t).
Proof.
  intros t d O. destruct (opendef_tags t d O) as [F K].
  assert (G : fin None (close_text t) = None /\ chk (ostack t) (tags (close_text t)) = Some []).
  { unfold close_text, ostack. destruct (seqAdded t), (baseClass t); split; vm_compute; reflexivity. }
  destruct G as [G1 G2]. split; [now rewrite fin_app, F|]. now rewrite tags_app, chk_app, K by exact F.
Qed.
Lemma XI_close : forall s p ph, XI s (p :: ph) -> exists s', closeType s = XOk s' /\ XI s' ph.
Proof.
  intros s p ph I. assert (I' := I). destruct I as (I1 & I2 & I3 & I4). unfold closeType.
  destruct (stk s) as [|t l] eqn:Q; [inversion I4|]. inversion I4; subst. eexists. split; [reflexivity|].
  destruct (complete t) eqn:C.
  - unfold XI. cbn [stk defs]. refine (conj _ (conj _ (conj _ _))).
    + intros u H C'. apply I1; [now right|exact C'].
    + intros n d M H. apply (I2 n d M). intros u [<-|Hu] Cu; [congruence|]. now apply H.
    + cbn [filter] in I3. rewrite C in I3. exact I3.
    + assumption.
  - destruct (XI_incomplete s _ t I') as [Nt O]; [rewrite Q; now left|exact C|].
    cbn [filter] in I3. rewrite C in I3. cbn [negb map] in I3. apply NoDup_cons_iff in I3 as [U I3].
    unfold XI, setdef. cbn [stk defs]. refine (conj _ (conj _ (conj _ _))).
    + intros u H C'. destruct (I1 u (or_intror H) C') as (A & d & B & D). split; [exact A|]. exists d. split; [|exact D].
      rewrite mfind_bset. destruct (beq (tname u) (tname t)) eqn:E; [|exact B]. apply beq_eq in E. exfalso. apply U. rewrite <- E.
      apply in_map. apply filter_In. split; [exact H|]. now rewrite C'.
    + intros n d M H. rewrite mfind_bset in M. destruct (beq n (tname t)) eqn:E.
      * injection M as <-. now apply close_balanced.
      * apply (I2 n d M). intros u [<-|Hu] Cu; [intros Z; rewrite <- Z, beq_refl in E; discriminate|]. now apply H.
    + exact I3.
    + assumption.
Qed.
Lemma XI_define : forall s ph type d, XI s ph -> balanced d -> XI (defineType s type d) ph.
Proof.
  intros s ph type d (I1 & I2 & I3 & I4) B. unfold defineType, mins. destruct (mfind bcmp type (defs s)) as [d0|] eqn:M.
  - destruct s. exact (conj I1 (conj I2 (conj I3 I4))).
  - unfold XI. cbn [stk defs]. refine (conj _ (conj _ (conj I3 I4))).
    + intros t H C. destruct (I1 t H C) as (A & d1 & F & D). split; [exact A|]. exists d1. split; [|exact D].
      rewrite (mfind_mset bcmp bcmp_eq). destruct (bcmp (tname t) type) eqn:E; try exact F. apply bcmp_eq in E. congruence.
    + intros n d1 H H0. rewrite (mfind_mset bcmp bcmp_eq) in H. destruct (bcmp n type) eqn:E.
      * injection H as <-. exact B. * exact (I2 n d1 H H0). * exact (I2 n d1 H H0).
Qed.

Lemma XI_run : forall ops s ph, XI s ph -> proper ops ph ->
  match xrun ops s with
  | XOk s' => stk s' = [] /\ forall n d, mfind bcmp n (defs s') = Some d -> balanced d
  | XThrow => True
  | XUB => False
  end.
Proof.
  induction ops as [|o ops IH]; intros s ph I P; cbn [xrun].
  - cbn [proper] in P. subst ph. destruct I as (_ & I2 & _ & I4). inversion I4. split; [reflexivity|].
    intros n d M. apply (I2 n d M). rewrite <- H. intros t [].
  - destruct o as [ty d| |n mt|b| |ty d|ty d|b]; cbn [proper xstep] in *.
    + destruct P as [C P]. eapply IH; [|exact P]. now apply XI_open.
    + destruct ph as [|p ph]; [destruct P|]. destruct (XI_close s p ph I) as (s' & -> & I'). eapply IH; eassumption.
    + destruct P as (A & B & P). eapply IH; [|exact P]. now apply XI_member.
    + destruct P as (A & B & P). destruct (addBase s b) as [s'| |] eqn:E.
      * assert (X : XI s' ph) by (eapply XI_base; eauto; now destruct ph as [|[] ?]).
        destruct ph as [|[] ph]; [eapply IH; eassumption|destruct P|eapply IH; eassumption].
      * exact Logic.I.
      * unfold addBase in E. destruct (stk s) as [|t l]; [discriminate|]. destruct (complete t); [discriminate|].
        destruct (baseClass t); [discriminate|]. destruct (beq _ _); discriminate.
    + destruct P as (A & P). destruct (setMixed s) as [s'| |] eqn:E.
      * eapply IH; [|exact P]. eapply XI_mixed; eassumption.
      * exact Logic.I.
      * unfold setMixed in E. destruct I as (_ & _ & _ & I4). destruct (stk s) as [|t l]; [inversion I4; congruence|].
        destruct (complete t); [discriminate|]. destruct (cfind gt _); discriminate.
    + destruct P as [B P]. eapply IH; [|exact P]. now apply XI_define.
    + eapply IH; [|exact P]. eapply XI_same; [exact I|apply addDependency_same|apply addDependency_same].
    + eapply IH; [|exact P]. eapply XI_same; [exact I|reflexivity|reflexivity].
Qed.
Lemma XI_0 : XI xsd0 [].
Proof. refine (conj _ (conj _ (conj _ _))); [intros t []|intros n d H; discriminate|constructor|constructor]. Qed.

Theorem C51_balanced : forall ops, proper ops [] ->
  match xrun ops xsd0 with
  | XOk s => stk s = [] /\ forall n d, mfind bcmp n (defs s) = Some d -> balanced d
  | XThrow => True
  | XUB => False
  end.
Proof. intros ops P. exact (XI_run ops xsd0 [] XI_0 P). Qed.
Definition C51_ops : list xop :=
  [XOpen (bs "A") (bs "a"); XMember (bs "x") (bs "xs:int");
   XOpen (bs "D") (bs "a.d"); XBase (bs "tns:B"); XMixed; XMember (bs "p") (bs "xs:string"); XClose;
   XOpen (bs "A") (bs "a.a"); XMember (bs "x") (bs "xs:int"); XClose;
   XOpt true; XMember (bs "y") (bs "tns:D"); XOpt false; XClose].
Example C51_balanced_ex : proper C51_ops [] /\ match xrun C51_ops xsd0 with XOk s => length (defs s) = 2 | _ => False end.
Proof. split; [cbn [proper C51_ops]; repeat split; discriminate|]. vm_compute. reflexivity. Qed.

(** the ready made definitions *)
Lemma attr_tag : forall ws w c e, clean ws -> clean (bs w ++ bs " ") -> clean c ->
  e = ws ++ lt :: (bs w ++ " "%char :: c ++ quot) ++ gt :: nl ->
  word (bs w ++ " "%char :: c ++ quot) = bs w -> (exists x r, bs w = x :: r /\ Ascii.eqb x slash = false) ->
  tags e = [TOpen (bs w)] /\ fin None e = None.
Proof.
  intros ws w c e W1 W2 C E Wd (x & r & Ew & X). destruct (one_tag e ws (bs w ++ " "%char :: c ++ quot) nl E W1) as [-> ->].
  - replace (bs w ++ " "%char :: c ++ quot) with ((bs w ++ bs " ") ++ c ++ quot) by (now rewrite <- app_assoc). cl.
  - reflexivity.
  - split; [|reflexivity]. f_equal. rewrite Ew in *. cbn [app] in *. apply classify_open; [|exact X|exact Wd].
    replace (x :: r ++ " "%char :: c ++ quot) with ((x :: r ++ " "%char :: c) ++ quot) by (cbn [app]; now rewrite <- app_assoc).
    unfold quot. rewrite last_last. reflexivity.
Qed.
Theorem C51_seq_def : forall type el elty lo hi, clean type -> clean el -> clean elty -> clean lo -> clean hi ->
  balanced (seq_def type el elty lo hi).
Proof.
  intros type el elty lo hi H1 H2 H3 H4 H5. unfold seq_def.
  set (a := bs "  <xs:complexType name=" ++ quot ++ type ++ quot ++ bs ">" ++ nl).
  set (b := bs "    <xs:sequence minOccurs=" ++ quot ++ lo ++ quot ++ bs " maxOccurs=" ++ quot ++ hi ++ quot ++ bs ">" ++ nl).
  set (z := bs "    </xs:sequence>" ++ nl ++ bs "  </xs:complexType>" ++ nl).
  destruct (attr_tag (bs "  ") "xs:complexType" (bs "name=" ++ quot ++ type) a) as [Ta Fa];
    [reflexivity|reflexivity|cl|unfold a; asc|reflexivity|eexists; eexists; split; reflexivity|].
  destruct (attr_tag (bs "    ") "xs:sequence" (bs "minOccurs=" ++ quot ++ lo ++ quot ++ bs " maxOccurs=" ++ quot ++ hi) b) as [Tb Fb];
    [reflexivity|reflexivity|cl|unfold b; asc|reflexivity|eexists; eexists; split; reflexivity|].
  destruct (elem_tags el elty false H2 H3) as [Te Fe].
  assert (E : bs "  <xs:complexType name=" ++ quot ++ type ++ quot ++ bs ">" ++ nl ++
    bs "    <xs:sequence minOccurs=" ++ quot ++ lo ++ quot ++ bs " maxOccurs=" ++ quot ++ hi ++ quot ++ bs ">" ++ nl ++
    bs "      <xs:element name=" ++ quot ++ el ++ quot ++ bs " type=" ++ quot ++ elty ++ quot ++ bs "/>" ++ nl ++ z
    = a ++ b ++ elem_line el elty false ++ z).
  { unfold a, b, elem_line. rewrite <- !app_assoc. reflexivity. }
  rewrite E. split.
  - rewrite !fin_app, Fa, Fb, Fe. reflexivity.
  - rewrite tags_app by exact Fa. rewrite tags_app by exact Fb. rewrite tags_app by exact Fe. rewrite Ta, Tb, Te. reflexivity.
Qed.
Theorem C51_enum_def : forall type keys, clean type -> Forall clean keys -> balanced (enum_def type keys).
Proof.
  intros type keys H1 H2. unfold enum_def.
  set (a := bs "  <xs:simpleType name=" ++ quot ++ type ++ quot ++ bs ">" ++ nl).
  set (b := bs "    <xs:restriction base=" ++ quot ++ bs "xs:string" ++ quot ++ bs ">" ++ nl).
  set (z := bs "    </xs:restriction>" ++ nl ++ bs "  </xs:simpleType>" ++ nl).
  set (m := concat (map (fun k => bs "      <xs:enumeration value=" ++ quot ++ k ++ quot ++ bs "/>" ++ nl) keys)).
  destruct (attr_tag (bs "  ") "xs:simpleType" (bs "name=" ++ quot ++ type) a) as [Ta Fa];
    [reflexivity|reflexivity|cl|unfold a; asc|reflexivity|eexists; eexists; split; reflexivity|].
  assert (M : fin None m = None /\ forall st, chk st (tags m) = Some st).
  { unfold m. clear - H2. induction H2 as [|k keys K Ks [IH1 IH2]]; [split; reflexivity|]. cbn [map concat].
    set (e := bs "      <xs:enumeration value=" ++ quot ++ k ++ quot ++ bs "/>" ++ nl).
    assert (T : tags e = [TEmpty (bs "xs:enumeration")] /\ fin None e = None).
    { pose (body := bs " value=" ++ quot ++ k ++ quot).
      destruct (one_tag e (bs "      ") (bs "xs:enumeration" ++ body ++ [slash]) nl) as [-> ->].
      - unfold e, body. asc. - reflexivity. - unfold body. cl. - reflexivity.
      - split; [|reflexivity]. f_equal. change (bs "xs:enumeration" ++ body ++ [slash]) with ("x"%char :: (bs "s:enumeration" ++ body ++ [slash])).
        apply classify_empty; [|reflexivity|].
        + change ("x"%char :: bs "s:enumeration" ++ body ++ [slash]) with (bs "xs:enumeration" ++ body ++ [slash]). rewrite app_assoc. apply last_last.
        + change ("x"%char :: bs "s:enumeration" ++ body ++ [slash]) with (bs "xs:enumeration" ++ body ++ [slash]). rewrite app_assoc, removelast_last. reflexivity. }
    destruct T as [Te Fe]. split; [now rewrite fin_app, Fe|]. intros st. rewrite tags_app by exact Fe. rewrite Te.
    cbn [app chk]. change (beq (bs "xs:enumeration") (bs "xs:element")) with false. apply IH2. }
  destruct M as [Fm Km].
  assert (E : bs "  <xs:simpleType name=" ++ quot ++ type ++ quot ++ bs ">" ++ nl ++
    bs "    <xs:restriction base=" ++ quot ++ bs "xs:string" ++ quot ++ bs ">" ++ nl ++ m ++ z = a ++ b ++ m ++ z).
  { unfold a, b. rewrite <- !app_assoc. reflexivity. }
  rewrite E.
  assert (Tb : tags b = [TOpen (bs "xs:restriction")] /\ fin None b = None) by (split; reflexivity). destruct Tb as [Tb Fb].
  split.
  - rewrite !fin_app, Fa, Fb, Fm. reflexivity.
  - rewrite tags_app by exact Fa. rewrite tags_app by exact Fb. rewrite tags_app by exact Fm. rewrite Ta, Tb.
    cbn [app chk]. rewrite chk_app, Km. reflexivity.
Qed.
Example C51_def_ex : clean (bs "std_vector_int_") /\ Forall clean [bs "red"; bs "blue"].
Proof. split; [reflexivity|repeat constructor]. Qed.

(** the schema of a class, 256-277 *)
Definition clean_classes (classes : name -> list (name * mty)) : Prop :=
  forall c n m, In (n, m) (classes c) -> clean n /\ match m with MFund t => clean t | MClass c' => clean c' | MPtr c' => clean c' end.
Definition gmem (G : name -> name -> xsd -> option xr) (d : name) :=
  fix go (ms : list (name * mty)) (s : xsd) : option xr :=
               match ms with
               | [] => Some (XOk s)
               | (n, MFund t) :: ms' => go ms' (addMember s (tail (d ++ bs "." ++ n)) t)
               | (n, MClass c') :: ms' => match G (d ++ bs "." ++ n) c' s with
                                          | Some (XOk s') => go ms' s'
                                          | r => r
                                          end
               | (n, MPtr c') :: ms' =>
                   match G (d ++ bs "." ++ n) c' (mkxsd (defs s) (deps s) (stk s) true) with
                   | Some (XOk s') => go ms' (mkxsd (defs s') (deps s') (stk s') (opt s))
                   | r => r
                   end
               end.
Lemma gen_S : forall classes f d c s, gen classes (S f) d c s =
  match (if beq (currentDescription s) d then addBase s (tns ++ c) else XOk (addMember s (tail d) (tns ++ c))) with
  | XOk s1 => match gmem (gen classes f) d (classes c) (openType s1 c d) with
              | Some (XOk s2) => Some (closeType s2)
              | r => r
              end
  | r => Some r
  end.
Proof.
  intros. cbn [gen]. destruct (beq (currentDescription s) d); [destruct (addBase s (tns ++ c))|]; reflexivity.
Qed.
Lemma clean_skipn : forall k u, clean u -> clean (skipn k u).
Proof.
  unfold clean. induction k as [|k IH]; intros [|c u] H; cbn [skipn]; try assumption. apply IH. cbn [forallb] in H.
  now apply andb_true_iff in H as [_ H].
Qed.
Lemma clean_tail : forall u, clean u -> clean (tail u).
Proof. intros. now apply clean_skipn. Qed.
Lemma addMember_descr : forall s n mt, map descr (stk (addMember s n mt)) = map descr (stk s).
Proof.
  intros s n mt. unfold addMember. destruct n as [|c n]; [reflexivity|]. destruct (stk s) as [|t l] eqn:Q; [now rewrite Q|].
  destruct (complete t); [now rewrite Q|]. rewrite (proj2 (addDependency_same _ _ _)). unfold settop, setdef. cbn [stk]. now rewrite Q.
Qed.
Lemma openType_descr : forall s t d, map descr (stk (openType s t d)) = d :: map descr (stk s).
Proof. intros. unfold openType. destruct (mfind bcmp t (defs s)); reflexivity. Qed.
Lemma currentDescription_descr : forall s d l, map descr (stk s) = d :: l -> currentDescription s = d.
Proof. intros s d l H. unfold currentDescription. destruct (stk s); [discriminate|]. now injection H. Qed.
Lemma dot_neq : forall (d n : list ascii), d <> d ++ bs "." ++ n.
Proof. intros d n H. apply (f_equal (@length ascii)) in H. rewrite !app_length in H. cbn [length bs list_ascii_of_string] in H. lia. Qed.

Lemma gen_ok : forall classes, clean_classes classes -> forall f d c s ph r, clean c -> clean d -> XI s ph ->
  (stk s = [] \/ currentDescription s <> d) -> gen classes f d c s = Some r ->
  exists s' ph', r = XOk s' /\ XI s' ph' /\ map descr (stk s') = map descr (stk s).
Proof.
  intros classes CC. induction f as [|f IH]; intros d c s ph r Cc Cd I K H; [discriminate|]. rewrite gen_S in H.
  assert (F : exists s1 ph1, (if beq (currentDescription s) d then addBase s (tns ++ c) else XOk (addMember s (tail d) (tns ++ c))) = XOk s1 /\ XI s1 ph1 /\ map descr (stk s1) = map descr (stk s)).
  { destruct (beq (currentDescription s) d) eqn:E.
    - apply beq_eq in E. destruct K as [K|K]; [|congruence]. exists s, ph. unfold addBase. rewrite K. auto.
    - eexists. eexists. split; [reflexivity|]. split; [apply XI_member; [exact I|now apply clean_tail|cl]|]. apply addMember_descr. }
  destruct F as (s1 & ph1 & E1 & I1 & D1). rewrite E1 in H. clear E1.
  assert (L : forall ms s2 ph2 r, (forall n m, In (n, m) ms -> clean n /\ match m with MFund t => clean t | MClass c' => clean c' | MPtr c' => clean c' end) ->
     XI s2 ph2 -> map descr (stk s2) = d :: map descr (stk s) -> gmem (gen classes f) d ms s2 = Some r ->
     exists s' ph', r = XOk s' /\ XI s' ph' /\ map descr (stk s') = d :: map descr (stk s)).
  { induction ms as [|[n m] ms IHm]; intros s2 ph2 r0 Cm I2 D2 H2.
    - cbn [gmem] in H2. injection H2 as <-. eauto.
    - destruct (Cm n m (or_introl eq_refl)) as [Cn Cmm]. assert (Cm' := fun n m H => Cm n m (or_intror H)).
      assert (Cdn : clean (d ++ bs "." ++ n)) by cl.
      cbn [gmem] in H2. fold (gmem (gen classes f) d) in H2. destruct m as [t|c'|c'].
      + eapply IHm; [exact Cm'| |rewrite addMember_descr; exact D2|exact H2]. apply XI_member; [exact I2|now apply clean_tail|exact Cmm].
      + destruct (gen classes f (d ++ bs "." ++ n) c' s2) as [r1|] eqn:G; [|discriminate].
        assert (K2 : stk s2 = [] \/ currentDescription s2 <> d ++ bs "." ++ n).
        { right. rewrite (currentDescription_descr _ _ _ D2). apply dot_neq. }
        destruct (IH _ _ _ _ _ Cmm Cdn I2 K2 G) as (s3 & ph3 & -> & I3 & D3).
        eapply IHm; [exact Cm'|exact I3|rewrite D3; exact D2|exact H2].
      + destruct (gen classes f (d ++ bs "." ++ n) c' (mkxsd (defs s2) (deps s2) (stk s2) true)) as [r1|] eqn:G; [|discriminate].
        assert (K2 : stk (mkxsd (defs s2) (deps s2) (stk s2) true) = [] \/ currentDescription (mkxsd (defs s2) (deps s2) (stk s2) true) <> d ++ bs "." ++ n).
        { right. change (currentDescription (mkxsd (defs s2) (deps s2) (stk s2) true)) with (currentDescription s2).
          rewrite (currentDescription_descr _ _ _ D2). apply dot_neq. }
        assert (I2' : XI (mkxsd (defs s2) (deps s2) (stk s2) true) ph2) by (eapply XI_same; [exact I2|reflexivity|reflexivity]).
        destruct (IH _ _ _ _ _ Cmm Cdn I2' K2 G) as (s3 & ph3 & -> & I3 & D3).
        eapply IHm; [exact Cm'| | |exact H2].
        * eapply XI_same; [exact I3|reflexivity|reflexivity].
        * cbn [stk]. rewrite D3. exact D2. }
  destruct (gmem (gen classes f) d (classes c) (openType s1 c d)) as [r1|] eqn:G; [|discriminate].
  assert (I0 : XI (openType s1 c d) (false :: ph1)) by now apply XI_open.
  assert (D0 : map descr (stk (openType s1 c d)) = d :: map descr (stk s)) by (rewrite openType_descr; now rewrite D1).
  destruct (L (classes c) (openType s1 c d) (false :: ph1) r1 (CC c) I0 D0 G) as (s2 & ph2 & -> & I2 & D2).
  destruct ph2 as [|p ph2].
  { destruct I2 as (_ & _ & _ & I4). inversion I4 as [Q0 Q1|]. rewrite <- Q1 in D2. discriminate. }
  destruct (XI_close s2 p ph2 I2) as (s3 & E3 & I3). rewrite E3 in H. injection H as <-. exists s3, ph2. split; [reflexivity|]. split; [exact I3|].
  unfold closeType in E3. destruct (stk s2) as [|t l]; [discriminate|]. injection E3 as <-. cbn [stk map] in *. now injection D2.
Qed.
Theorem C51_generated : forall classes fuel d c r, clean_classes classes -> clean c -> clean d ->
  gen classes fuel d c xsd0 = Some r ->
  exists s, r = XOk s /\ stk s = [] /\ forall n x, mfind bcmp n (defs s) = Some x -> balanced x.
Proof.
  intros classes fuel d c r CC Cc Cd H. destruct (gen_ok classes CC fuel d c xsd0 [] r Cc Cd XI_0 (or_introl eq_refl) H) as (s & ph & -> & I & D).
  exists s. split; [reflexivity|]. assert (K : stk s = []) by (destruct (stk s); [reflexivity|discriminate]). split; [exact K|].
  intros n x M. destruct I as (_ & I2 & _). apply (I2 n x M). rewrite K. intros t [].
Qed.
Definition ex_classes (c : name) : list (name * mty) :=
  if beq c (bs "A") then [(bs "x", MFund (bs "xs:int")); (bs "b", MClass (bs "B")); (bs "p", MPtr (bs "C"))]
  else if beq c (bs "B") then [(bs "c", MClass (bs "C"))] else [].
Lemma ex_classes_clean : clean_classes ex_classes.
Proof.
  intros c n m H. unfold ex_classes in H. destruct (beq c (bs "A")); [|destruct (beq c (bs "B"))]; cbn [In] in H;
  repeat (destruct H as [E|H]; [injection E as <- <-; split; reflexivity|]); destruct H.
Qed.
Example C51_generated_ex : clean_classes ex_classes /\ clean (bs "A") /\ clean (bs "root") /\
  match gen ex_classes 5 (bs "root") (bs "A") xsd0 with Some (XOk s) => length (defs s) = 3 | _ => False end.
Proof. split; [exact ex_classes_clean|]. split; [reflexivity|]. split; [reflexivity|]. vm_compute. reflexivity. Qed.

(** a class without members gets an xs:any directly inside its complexType, which XML schema
    does not allow *)
Definition any_in_sequence := fix go (st : list (list ascii)) (ts : list tag) : bool :=
  match ts with
  | [] => true
  | TOpen n :: ts' => go (n :: st) ts'
  | TClose _ :: ts' => go (List.tl st) ts'
  | TEmpty n :: ts' => (negb (beq n (bs "xs:any")) || match st with m :: _ => beq m SEQ | [] => false end)%bool && go st ts'
  end.
Theorem C51_any_refuted : exists classes s, gen classes 2 (bs "root") (bs "A") xsd0 = Some (XOk s) /\
  any_in_sequence [] (tags (defof s (bs "A"))) = false.
Proof. exists (fun _ => []). eexists. split; [vm_compute; reflexivity|]. vm_compute. reflexivity. Qed.
Theorem C51_any : forall t d, opendef t d -> seqAdded t = true -> baseClass t = [] ->
  exists d1 d2, d ++ close_text t = d1 ++ any_line ++ d2 /\ fin None d1 = None /\ chk [] (tags d1) = Some [SEQ; CT].
Proof.
  intros t d O SA BC. unfold close_text. rewrite SA, BC. destruct (opendef_tags t d O) as [F K].
  exists d. eexists. split; [rewrite <- !app_assoc; reflexivity|]. split; [exact F|]. rewrite K. unfold ostack. now rewrite SA, BC.
Qed.
(** a base class after a member *)
Theorem C51_base_refuted : exists s,
  xrun [XOpen (bs "A") (bs "a"); XMember (bs "x") (bs "xs:int"); XBase (bs "tns:B"); XClose] xsd0 = XOk s /\
  chk [] (tags (defof s (bs "A"))) = None.
Proof. eexists. split; [vm_compute; reflexivity|]. vm_compute. reflexivity. Qed.
(** the base class "xs::string" removes the closing quote of the name *)
Fixpoint quotes (s : list ascii) : nat := match s with [] => 0 | c :: s' => if Ascii.eqb c "034"%char then S (quotes s') else quotes s' end.
Theorem C51_string_refuted : exists s,
  xrun [XOpen (bs "A") (bs "a"); XBase (bs "xs::string"); XClose] xsd0 = XOk s /\ Nat.odd (quotes (defof s (bs "A"))) = true.
Proof. eexists. split; [vm_compute; reflexivity|]. vm_compute. reflexivity. Qed.
Print Assumptions C51_balanced.
Print Assumptions C51_seq_def.
Print Assumptions C51_enum_def.
Print Assumptions C51_generated.
Print Assumptions C51_any.
Print Assumptions C51_any_refuted.
Print Assumptions C51_base_refuted.
Print Assumptions C51_string_refuted.

(** ** C64: termination of the generation *)
Theorem C64_terminates : forall classes (rank : name -> nat),
  (forall c n m, In (n, m) (classes c) -> match m with MFund _ => True | MClass c' => rank c' < rank c | MPtr c' => rank c' < rank c end) ->
  forall fuel d c s, rank c < fuel -> gen classes fuel d c s <> None.
Proof.
  intros classes rank R. induction fuel as [|f IH]; intros d c s H; [lia|]. rewrite gen_S.
  destruct (if beq (currentDescription s) d then addBase s (tns ++ c) else XOk (addMember s (tail d) (tns ++ c))); try discriminate.
  assert (L : forall ms s, incl ms (classes c) -> gmem (gen classes f) d ms s <> None).
  { induction ms as [|[n m] ms IHm]; intros s2 In2; [discriminate|]. cbn [gmem]. fold (gmem (gen classes f) d).
    assert (In3 : incl ms (classes c)) by (intros x Hx; apply In2; now right).
    assert (Q := R c n m (In2 (n, m) (or_introl eq_refl))). destruct m as [t|c'|c'].
    - now apply IHm.
    - assert (Z := IH (d ++ bs "." ++ n) c' s2 ltac:(lia)). destruct (gen classes f _ c' s2) as [[s3| |]|]; try discriminate; [|congruence]. now apply IHm.
    - assert (Z := IH (d ++ bs "." ++ n) c' (mkxsd (defs s2) (deps s2) (stk s2) true) ltac:(lia)).
      destruct (gen classes f _ c' (mkxsd (defs s2) (deps s2) (stk s2) true)) as [[s3| |]|]; try discriminate; [|congruence]. now apply IHm. }
  assert (Z := L (classes c) (openType s0 c d) (incl_refl _)). destruct (gmem _ d (classes c) (openType s0 c d)) as [[s3| |]|]; try discriminate. congruence.
Qed.
Example C64_ex : exists rank : name -> nat,
  forall c n m, In (n, m) (ex_classes c) -> match m with MFund _ => True | MClass c' => rank c' < rank c | MPtr c' => rank c' < rank c end.
Proof.
  exists (fun c => if beq c (bs "A") then 2 else if beq c (bs "B") then 1 else 0). intros c n m H. unfold ex_classes in H.
  destruct (beq c (bs "A")); [|destruct (beq c (bs "B"))]; cbn [In] in H;
  repeat (destruct H as [E|H]; [injection E as <- <-; cbn; auto|]); destruct H.
Qed.
(** a class with a shared_ptr to itself: the call stack overflows *)
Theorem C64_recursive_refuted : exists classes, forall fuel, gen classes fuel (bs "list") (bs "Node") xsd0 = None.
Proof.
  exists (fun _ => [(bs "next", MPtr (bs "Node"))]). intros fuel.
  set (classes := fun _ : name => [(bs "next", MPtr (bs "Node"))]).
  assert (L : forall f d s, (stk s = [] \/ currentDescription s <> d) -> gen classes f d (bs "Node") s = None).
  { induction f as [|f IH]; intros d s K; [reflexivity|]. rewrite gen_S.
    assert (F : exists s1, (if beq (currentDescription s) d then addBase s (tns ++ bs "Node") else XOk (addMember s (tail d) (tns ++ bs "Node"))) = XOk s1).
    { destruct (beq (currentDescription s) d) eqn:E; [|eauto]. apply beq_eq in E. destruct K as [K|K]; [|congruence].
      unfold addBase. rewrite K. eauto. }
    destruct F as (s1 & ->). change (classes (bs "Node")) with [(bs "next", MPtr (bs "Node"))]. cbn [gmem].
    rewrite IH; [reflexivity|]. right.
    change (currentDescription (mkxsd (defs (openType s1 (bs "Node") d)) (deps (openType s1 (bs "Node") d)) (stk (openType s1 (bs "Node") d)) true))
      with (currentDescription (openType s1 (bs "Node") d)).
    rewrite (currentDescription_descr _ _ _ (openType_descr s1 (bs "Node") d)). apply dot_neq. }
  apply L. now left.
Qed.
Print Assumptions C64_terminates.
Print Assumptions C64_recursive_refuted.

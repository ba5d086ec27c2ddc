(** * C107 – C109: classes registered with Python, and containers seen from there *)
From Verif Require Import Base SMap Desc_Model PyClass_Model.

(** ** C107 *)
(** the types whose definition a type needs *)
Inductive reach (e : env) (t : ty) : ty -> Prop :=
  | r_self : reach e t t
  | r_seq : forall u, reach e t (TSeq u) -> reach e t u
  | r_ptr : forall u, reach e t (TPtr u) -> reach e t u
  | r_key : forall k v, reach e t (TMap k v) -> reach e t k
  | r_val : forall k v, reach e t (TMap k v) -> reach e t v
  | r_mem : forall n x ts u, reach e t (TCls n) -> In (x, ts) (members e n) -> In u ts -> abstract e u = false -> reach e t u.

(** *** it ends *)
Fixpoint size (t : ty) : nat :=
  match t with TBasic => 1 | TCls _ => 1 | TSeq u => S (size u) | TPtr u => S (size u) | TMap k v => S (size k + size v) end.
(** the types of the members of all classes *)
Definition universe (e : env) : list ty := nodup ty_dec (flat_map (fun c => flat_map snd (snd c)) e).
Definition unstarted (e : env) (s : st) : nat := length (filter (fun t => if in_dec ty_dec t (started s) then false else true) (universe e)).
Definition biggest (e : env) : nat := list_max (map size (universe e)).

Lemma in_universe : forall e n x ts t, In (x, ts) (members e n) -> In t ts -> In t (universe e).
Proof.
  intros e n x ts t M T. unfold universe. apply nodup_In. unfold members in M.
  destruct (Nat.lt_ge_cases n (length e)) as [L|L].
  - apply in_flat_map. exists (nth n e (false, [])). split; [now apply nth_In|]. apply in_flat_map. exists (x, ts). auto.
  - rewrite nth_overflow in M by exact L. destruct M.
Qed.
Lemma biggest_le : forall e t, In t (universe e) -> (size t <= biggest e)%nat.
Proof.
  intros e t H. unfold biggest. pose proof (proj1 (list_max_le (map size (universe e)) (list_max (map size (universe e)))) (Nat.le_refl _)) as F.
  rewrite Forall_forall in F. apply F. now apply in_map.
Qed.
Lemma filter_le : forall (A : Type) (f g : A -> bool) l, (forall x, f x = true -> g x = true) -> (length (filter f l) <= length (filter g l))%nat.
Proof.
  intros A f g l H. induction l as [|x l IH]; cbn; [lia|]. destruct (f x) eqn:E.
  - rewrite (H x E). cbn. lia.
  - destruct (g x); cbn; lia.
Qed.
Lemma filter_lt : forall (A : Type) (f g : A -> bool) l y, (forall x, f x = true -> g x = true) -> In y l -> f y = false -> g y = true ->
  (length (filter f l) < length (filter g l))%nat.
Proof.
  intros A f g l y H. induction l as [|x l IH]; intros I F G; [destruct I|]. cbn. destruct I as [->|I].
  - rewrite F, G. cbn. pose proof (filter_le A f g l H). lia.
  - specialize (IH I F G). destruct (f x) eqn:E; [rewrite (H x E); cbn; lia|]. destruct (g x); cbn; lia.
Qed.
Lemma unstarted_mono : forall e s s', incl (started s) (started s') -> (unstarted e s' <= unstarted e s)%nat.
Proof.
  intros e s s' H. apply filter_le. intros x. destruct (in_dec ty_dec x (started s')); [discriminate|]. intros _.
  destruct (in_dec ty_dec x (started s)); [exfalso; auto|reflexivity].
Qed.
Lemma unstarted_set : forall e s t, In t (universe e) -> ~ In t (started s) -> (unstarted e (set_started t s) < unstarted e s)%nat.
Proof.
  intros e s t U N. apply (filter_lt _ _ _ _ t); [|exact U| |].
  - intros x. cbn [started set_started]. destruct (in_dec ty_dec x (t :: started s)) as [|n]; [discriminate|]. intros _.
    destruct (in_dec ty_dec x (started s)); [exfalso; apply n; now right|reflexivity].
  - cbn [started set_started]. destruct (in_dec ty_dec t (t :: started s)) as [|n]; [reflexivity|exfalso; apply n; now left].
  - destruct (in_dec ty_dec t (started s)); [contradiction|reflexivity].
Qed.
Lemma add_def_started : forall n x s, started (add_def n x s) = started s.
Proof. intros. unfold add_def. destruct (in_dec _ _ _); reflexivity. Qed.

Section Ends.
  Variable e : env.
  Lemma members_end : forall d n k, 
    (forall t s, In t (universe e) -> (unstarted e s < k)%nat -> exists s', d t s = Some s' /\ incl (started s) (started s')) ->
    forall ms, incl ms (members e n) -> forall s, (unstarted e s <= k)%nat ->
    exists s', add_members d e n ms s = Some s' /\ incl (started s) (started s').
  Proof.
    intros d n k D.
    assert (G : forall ts, (forall t, In t ts -> In t (universe e)) -> forall s, (unstarted e s <= k)%nat ->
      exists s', guarded_all d e ts s = Some s' /\ incl (started s) (started s')).
    { induction ts as [|t ts IH]; intros U s K; cbn [guarded_all]; [exists s; split; [reflexivity|apply incl_refl]|].
      assert (X : exists s', guarded d e t s = Some s' /\ incl (started s) (started s')).
      { unfold guarded. destruct (in_dec ty_dec t (started s)) as [i|n1]; [exists s; split; [reflexivity|apply incl_refl]|].
        destruct (abstract e t).
        - exists (set_started t s). split; [reflexivity|]. cbn. apply incl_tl, incl_refl.
        - destruct (D t (set_started t s)) as (s' & E & I); [apply U; now left| |].
          + pose proof (unstarted_set e s t (U t (or_introl eq_refl)) n1). lia.
          + exists s'. split; [exact E|]. intros x Hx. apply I. cbn. now right. }
      destruct X as (s1 & -> & I1). destruct (IH (fun t H => U t (or_intror H)) s1) as (s2 & E2 & I2).
      - pose proof (unstarted_mono e s s1 I1). lia.
      - exists s2. split; [exact E2|]. intros x Hx. auto. }
    induction ms as [|[x ts] ms IH]; intros M s K; cbn [add_members]; [exists s; split; [reflexivity|apply incl_refl]|].
    destruct (G ts) with (s := add_def n x s) as (s1 & -> & I1).
    - intros t Ht. eapply in_universe; [apply M; now left|exact Ht].
    - unfold unstarted. rewrite add_def_started. exact K.
    - rewrite add_def_started in I1. destruct (IH (fun y H => M y (or_intror H)) s1) as (s2 & E2 & I2).
      + pose proof (unstarted_mono e s s1 I1). lia.
      + exists s2. split; [exact E2|]. intros y Hy. auto.
  Qed.
  Lemma define_end : forall f t s, (unstarted e s * S (biggest e) + size t <= f)%nat ->
    exists s', define f e t s = Some s' /\ incl (started s) (started s').
  Proof.
    induction f as [|f IH]; intros t s H; [destruct t; cbn in H; lia|]. cbn [define]. destruct t as [|n|u|k v|u]; cbn [size] in H.
    - eexists. split; [reflexivity|apply incl_refl].
    - destruct (members_end (define f e) n (unstarted e s)) with (ms := members e n) (s := s) as (s' & -> & I).
      + intros t s1 U L. apply IH. pose proof (biggest_le e t U). nia.
      + apply incl_refl.
      + lia.
      + eexists. split; [reflexivity|exact I].
    - destruct (IH u s) as (s' & -> & I); [lia|]. eexists. split; [reflexivity|exact I].
    - destruct (IH v s) as (s1 & -> & I1); [lia|]. destruct (IH k s1) as (s2 & -> & I2).
      + pose proof (unstarted_mono e s s1 I1). nia.
      + eexists. split; [reflexivity|]. cbn. intros x Hx. auto.
    - destruct (IH u s) as (s' & -> & I); [lia|]. eexists. split; [reflexivity|exact I].
  Qed.
End Ends.
(** C107: registering ends, for all classes however they refer to each other, with a bound on the depth of calls *)
Theorem C107_ends : forall e ts s f, (forall t, In t ts -> (unstarted e s * S (biggest e) + size t <= f)%nat) ->
  exists s', define_all f e ts s = Some s'.
Proof.
  intros e. induction ts as [|t ts IH]; intros s f H; cbn [define_all]; [eauto|].
  destruct (define_end e f t s) as (s1 & -> & I); [apply H; now left|]. apply IH. intros u U.
  pose proof (H u (or_intror U)). pose proof (unstarted_mono e s s1 I). nia.
Qed.
Print Assumptions C107_ends.
(** a class with a pointer to its own class and a vector of classes that refer back *)
Definition env_ex : env := [(false, [(bs "next", [TPtr (TCls 0)]); (bs "all", [TSeq (TCls 1)])]); (false, [(bs "up", [TMap TBasic (TCls 0); TCls 2])]); (true, [(bs "x", [TBasic])])].
Example C107_ends_ex : forall t, In t [TCls 0] -> (unstarted env_ex st0 * S (biggest env_ex) + size t <= 40)%nat.
Proof. intros t [<-|[]]. vm_compute. lia. Qed.

(** *** and everything needed is defined *)
Definition has_all (e : env) (s : st) (n : nat) : Prop := forall x ts, In (x, ts) (members e n) -> In (n, x) (defs s).
(** what has to hold once [python<t>] has returned *)
Definition settled (e : env) (s : st) (t : ty) : Prop :=
  match t with
  | TBasic => True
  | TCls n => In n (completed s) /\ has_all e s n /\ forall x ts u, In (x, ts) (members e n) -> In u ts -> In u (started s)
  | TSeq u | TPtr u => In u (returned s)
  | TMap k v => In k (returned s) /\ In v (returned s)
  end.
Definition le_st (s s' : st) : Prop :=
  incl (started s) (started s') /\ incl (completed s) (completed s') /\ incl (defs s) (defs s') /\ incl (returned s) (returned s').
Lemma le_refl : forall s, le_st s s.
Proof. intros. repeat split; apply incl_refl. Qed.
Lemma le_trans : forall a b c, le_st a b -> le_st b c -> le_st a c.
Proof. intros a b c (A & B & C & D) (A' & B' & C' & D'). repeat split; eapply incl_tran; eassumption. Qed.
Lemma settled_mono : forall e s s' t, le_st s s' -> settled e s t -> settled e s' t.
Proof.
  intros e s s' t (A & B & C & D) H. destruct t; cbn in *; auto.
  - destruct H as (X & Y & Z). split; [auto|]. split; [intros x ts M; apply C; eapply Y; eassumption|eauto].
  - destruct H. auto.
Qed.
(** the invariant, with the types being defined in [P] *)
Definition inv (e : env) (P : list ty) (s : st) : Prop :=
  (forall t, In t (returned s) -> settled e s t) /\
  (forall n, In n (completed s) -> has_all e s n) /\
  (forall t, In t (started s) -> abstract e t = false -> In t (returned s) \/ In t P).
Lemma add_def_le : forall n x s, le_st s (add_def n x s).
Proof. intros. unfold add_def. destruct (in_dec _ _ _); [apply le_refl|]. repeat split; cbn; try apply incl_refl. apply incl_tl, incl_refl. Qed.
Lemma add_def_inv : forall e P n x s, inv e P s -> inv e P (add_def n x s).
Proof.
  intros e P n x s (A & B & C). pose proof (add_def_le n x s) as L. unfold add_def in *. destruct (in_dec _ _ _); [split; auto|].
  split; [|split; cbn [completed started returned] in *; auto].
  - intros t H. eapply settled_mono; [exact L|]. apply A. exact H.
  - intros m H y ts M. cbn. right. eapply B; eassumption.
Qed.
Lemma set_returned_le : forall t s, le_st s (set_returned t s).
Proof. intros. repeat split; cbn; try apply incl_refl. apply incl_tl, incl_refl. Qed.
Lemma set_returned_inv : forall e P t s, inv e P s -> settled e s t -> inv e P (set_returned t s).
Proof.
  intros e P t s (A & B & C) S. pose proof (set_returned_le t s) as L. split; [|split].
  - intros u [<-|U]; eapply settled_mono; eauto.
  - intros n H. cbn in H. eapply B; eassumption.
  - intros u U F. cbn in U |- *. destruct (C u U F); auto.
Qed.

Section All.
  Variables (e : env) (d : ty -> st -> option st).
  Hypothesis D : forall P t s s', d t s = Some s' -> inv e P s -> le_st s s' /\ inv e P s' /\ In t (returned s').
  Lemma guarded_inv : forall P t s s', guarded d e t s = Some s' -> inv e P s -> le_st s s' /\ inv e P s' /\ In t (started s').
  Proof.
    intros P t s s' G I. unfold guarded in G. destruct (in_dec ty_dec t (started s)) as [i|n].
    - injection G as <-. split; [apply le_refl|auto].
    - assert (L : le_st s (set_started t s)) by (repeat split; cbn; try apply incl_refl; apply incl_tl, incl_refl).
      destruct (abstract e t) eqn:AB.
      + injection G as <-. split; [exact L|]. split; [|now left]. destruct I as (A & B & C). split; [|split].
        * intros u U. eapply settled_mono; [exact L|]. now apply A.
        * intros m M. cbn in M. now apply B.
        * intros u [<-|U] F; [congruence|]. now apply C.
      + destruct (D (t :: P) t (set_started t s) s' G) as (L2 & (A & B & C) & R).
        * destruct I as (A & B & C). split; [|split].
          -- intros u U. eapply settled_mono; [exact L|]. now apply A.
          -- intros m M. cbn in M. now apply B.
          -- intros u [<-|U] F; [right; now left|]. destruct (C u U F); [now left|right; now right].
        * split; [eapply le_trans; eassumption|]. split; [|apply L2; now left].
          split; [exact A|]. split; [exact B|]. intros u U F. destruct (C u U F) as [X|[<-|X]]; auto.
  Qed.
  Lemma guarded_all_inv : forall P ts s s', guarded_all d e ts s = Some s' -> inv e P s ->
    le_st s s' /\ inv e P s' /\ forall t, In t ts -> In t (started s').
  Proof.
    intros P. induction ts as [|t ts IH]; intros s s' G I; cbn [guarded_all] in G.
    - injection G as <-. split; [apply le_refl|]. split; [exact I|]. intros ? [].
    - destruct (guarded d e t s) as [s1|] eqn:E; [|discriminate].
      destruct (guarded_inv P t s s1 E I) as (L1 & I1 & T). destruct (IH s1 s' G I1) as (L2 & I2 & TS).
      split; [eapply le_trans; eassumption|]. split; [exact I2|]. intros u [<-|U]; [apply L2; exact T|auto].
  Qed.
  Lemma add_members_inv : forall P n ms s s', incl ms (members e n) -> add_members d e n ms s = Some s' -> inv e P s ->
    le_st s s' /\ inv e P s' /\ forall x ts, In (x, ts) ms -> In (n, x) (defs s') /\ forall u, In u ts -> In u (started s').
  Proof.
    intros P n. induction ms as [|[x ts] ms IH]; intros s s' M G I; cbn [add_members] in G.
    - injection G as <-. split; [apply le_refl|]. split; [exact I|]. intros ? ? [].
    - destruct (guarded_all d e ts (add_def n x s)) as [s1|] eqn:E; [|discriminate].
      assert (X : In (n, x) (defs (add_def n x s))).
      { unfold add_def. destruct (in_dec Nat.eq_dec n (completed s)) as [c|]; [|now left].
        destruct I as (_ & B & _). apply (B n c x ts). apply M. now left. }
      destruct (guarded_all_inv P ts _ s1 E (add_def_inv e P n x s I)) as (L1 & I1 & T).
      destruct (IH s1 s' (fun y H => M y (or_intror H)) G I1) as (L2 & I2 & TS).
      split; [eapply le_trans; [apply add_def_le|eapply le_trans; eassumption]|]. split; [exact I2|].
      intros y us [E1|U]; [|now apply TS]. injection E1 as <- <-. split; [apply L2, L1, X|]. intros u U. apply L2. now apply T.
  Qed.
End All.
Lemma define_inv : forall f e P t s s', define f e t s = Some s' -> inv e P s -> le_st s s' /\ inv e P s' /\ In t (returned s').
Proof.
  induction f as [|f IH]; intros e P t s s' H I; [discriminate|]. cbn [define] in H. destruct t as [|n|u|k v|u].
  - injection H as <-. split; [apply set_returned_le|]. split; [|now left]. apply set_returned_inv; [exact I|exact Logic.I].
  - destruct (add_members _ _ _ _ _) as [s1|] eqn:E; [|discriminate]. injection H as <-.
    destruct (add_members_inv e (define f e) (fun P t s s' => IH e P t s s') P n (members e n) s s1 (incl_refl _) E I) as (L1 & I1 & T).
    assert (L2 : le_st s1 (set_completed n s1)) by (repeat split; cbn; try apply incl_refl; apply incl_tl, incl_refl).
    assert (I2 : inv e P (set_completed n s1)).
    { destruct I1 as (A & B & C). split; [|split; [|exact C]].
      - intros u U. eapply settled_mono; [exact L2|]. now apply A.
      - intros m [<-|M]; [|now apply B]. intros x ts X. now apply (T x ts). }
    split; [eapply le_trans; [exact L1|]; eapply le_trans; [exact L2|]; apply set_returned_le|].
    split; [|now left]. apply set_returned_inv; [exact I2|]. cbn. split; [now left|]. split.
    + intros x ts X. now apply (T x ts).
    + intros x ts u X U. now apply (T x ts).
  - destruct (define f e u s) as [s1|] eqn:E; [|discriminate]. injection H as <-. destruct (IH e P u s s1 E I) as (L & I1 & R).
    split; [eapply le_trans; [exact L|apply set_returned_le]|]. split; [|now left]. apply set_returned_inv; [exact I1|exact R].
  - destruct (define f e v s) as [s1|] eqn:E; [|discriminate]. destruct (define f e k s1) as [s2|] eqn:E2; [|discriminate]. injection H as <-.
    destruct (IH e P v s s1 E I) as (L & I1 & R). destruct (IH e P k s1 s2 E2 I1) as (L2 & I2 & R2).
    split; [eapply le_trans; [exact L|]; eapply le_trans; [exact L2|apply set_returned_le]|]. split; [|now left].
    apply set_returned_inv; [exact I2|]. split; [exact R2|]. apply L2. exact R.
  - destruct (define f e u s) as [s1|] eqn:E; [|discriminate]. injection H as <-. destruct (IH e P u s s1 E I) as (L & I1 & R).
    split; [eapply le_trans; [exact L|apply set_returned_le]|]. split; [|now left]. apply set_returned_inv; [exact I1|exact R].
Qed.
Lemma define_all_inv : forall f e ts s s', define_all f e ts s = Some s' -> inv e [] s -> le_st s s' /\ inv e [] s' /\ incl ts (returned s').
Proof.
  intros f e. induction ts as [|t ts IH]; intros s s' H I; cbn [define_all] in H.
  - injection H as <-. split; [apply le_refl|]. split; [exact I|]. intros ? [].
  - destruct (define f e t s) as [s1|] eqn:E; [|discriminate]. destruct (define_inv f e [] t s s1 E I) as (L & I1 & R).
    destruct (IH s1 s' H I1) as (L2 & I2 & R2). split; [eapply le_trans; eassumption|]. split; [exact I2|].
    intros u [<-|U]; [apply L2; exact R|auto].
Qed.
Lemma inv_start : forall e, inv e [] st0.
Proof. intros e. split; [|split]; cbn; intros; contradiction. Qed.
(** C107: every class that the registered types need, through members, arguments and results of functions,
    elements of containers and targets of pointers, is completed and has all its members *)
Theorem C107_all : forall f e ts s n, define_all f e ts st0 = Some s -> (exists t, In t ts /\ reach e t (TCls n)) ->
  In n (completed s) /\ forall x us, In (x, us) (members e n) -> In (n, x) (defs s).
Proof.
  intros f e ts s n H (t & T & R). destruct (define_all_inv f e ts st0 s H (inv_start e)) as (_ & (A & B & C) & TS).
  assert (G : forall u, reach e t u -> In u (returned s)).
  { induction 1 as [|u R0 IH|u R0 IH|k v R0 IH|k v R0 IH|m x us u R0 IH M U AB].
    - auto.
    - exact (A _ IH).
    - exact (A _ IH).
    - exact (proj1 (A _ IH)).
    - exact (proj2 (A _ IH)).
    - destruct (A _ IH) as (_ & _ & X). destruct (C u (X x us u M U) AB) as [Y|[]]. exact Y. }
  destruct (A _ (G _ R)) as (X & Y & _). auto.
Qed.
Print Assumptions C107_all.
Example C107_all_ex : exists s, define_all 40 env_ex [TCls 0] st0 = Some s /\ reach env_ex (TCls 0) (TCls 1) /\ ~ In 2%nat (completed s).
Proof.
  eexists. split; [vm_compute; reflexivity|]. split.
  - apply r_seq. eapply (r_mem env_ex (TCls 0) 0 (bs "all") [TSeq (TCls 1)]); [apply r_self|right; now left|now left|reflexivity].
  - cbn. lia.
Qed.

(** C107: nothing else gets attributes *)
Definition only (e : env) (ts : list ty) (s : st) : Prop :=
  forall n x, In (n, x) (defs s) -> (exists t, In t ts /\ reach e t (TCls n)) /\ exists us, In (x, us) (members e n).
Lemma define_only : forall f e ts t s s', define f e t s = Some s' -> (exists t0, In t0 ts /\ reach e t0 t) -> only e ts s -> only e ts s'.
Proof.
  induction f as [|f IH]; intros e ts t s s' H R O; [discriminate|]. cbn [define] in H. destruct t as [|n|u|k v|u].
  - injection H as <-. exact O.
  - destruct (add_members _ _ _ _ _) as [s1|] eqn:E; [|discriminate]. injection H as <-.
    enough (O1 : only e ts s1) by exact O1.
    assert (G : forall us y s s', incl us us -> In (y, us) (members e n) -> forall vs, incl vs us -> guarded_all (define f e) e vs s = Some s' -> only e ts s -> only e ts s').
    { clear - IH R. intros us y s s' _ M. intros vs. revert s s'. induction vs as [|v vs IHv]; intros s s' V G O; cbn [guarded_all] in G; [now injection G as <-|].
      destruct (guarded _ _ _ _) as [s1|] eqn:E; [|discriminate]. apply (IHv s1 s' (fun z Z => V z (or_intror Z)) G).
      unfold guarded in E. destruct (in_dec ty_dec v (started s)); [now injection E as <-|].
      destruct (abstract e v) eqn:AB; [injection E as <-; exact O|]. apply (IH e ts v _ s1 E); [|exact O].
      destruct R as (t0 & T0 & R). exists t0. split; [exact T0|]. eapply r_mem; [exact R|exact M|apply V; now left|exact AB]. }
    assert (K : forall ms, incl ms (members e n) -> forall s s', add_members (define f e) e n ms s = Some s' -> only e ts s -> only e ts s').
    { clear E O. induction ms as [|[x us] ms IHm]; intros M s0 s2 H O; cbn [add_members] in H; [now injection H as <-|].
      destruct (guarded_all _ _ _ _) as [s3|] eqn:E; [|discriminate]. apply (IHm (fun z Z => M z (or_intror Z)) s3 s2 H).
      apply (G us x _ s3 (incl_refl _) (M _ (or_introl eq_refl)) us (incl_refl _) E).
      unfold add_def. destruct (in_dec _ _ _); [exact O|]. intros m y [Y|Y]; [|now apply O]. injection Y as <- <-.
      split; [exact R|]. exists us. apply M. now left. }
    exact (K _ (incl_refl _) s s1 E O).
  - destruct (define f e u s) as [s1|] eqn:E; [|discriminate]. injection H as <-. apply (IH e ts u s s1 E); [|exact O].
    destruct R as (t0 & T0 & R). exists t0. split; [exact T0|now apply r_seq].
  - destruct (define f e v s) as [s1|] eqn:E; [|discriminate]. destruct (define f e k s1) as [s2|] eqn:E2; [|discriminate]. injection H as <-.
    destruct R as (t0 & T0 & R). apply (IH e ts k s1 s2 E2); [exists t0; split; [exact T0|now apply (r_key _ _ k v)]|].
    apply (IH e ts v s s1 E); [exists t0; split; [exact T0|now apply (r_val _ _ k v)]|exact O].
  - destruct (define f e u s) as [s1|] eqn:E; [|discriminate]. injection H as <-. apply (IH e ts u s s1 E); [|exact O].
    destruct R as (t0 & T0 & R). exists t0. split; [exact T0|now apply r_ptr].
Qed.
Theorem C107_only : forall f e ts s, define_all f e ts st0 = Some s -> forall n x, In (n, x) (defs s) ->
  (exists t, In t ts /\ reach e t (TCls n)) /\ exists us, In (x, us) (members e n).
Proof.
  intros f e ts s H. assert (G : forall ts' s s', incl ts' ts -> define_all f e ts' s = Some s' -> only e ts s -> only e ts s').
  { induction ts' as [|t ts' IH]; intros s1 s2 T E O; cbn [define_all] in E; [now injection E as <-|].
    destruct (define f e t s1) as [s3|] eqn:E1; [|discriminate]. apply (IH s3 s2 (fun z Z => T z (or_intror Z)) E).
    apply (define_only f e ts t s1 s3 E1); [|exact O]. exists t. split; [apply T; now left|apply r_self]. }
  exact (G ts st0 s (incl_refl _) H (fun n x F => match F with end)).
Qed.
Print Assumptions C107_only.
(** C107: a class that is reached again while it is being defined gets its members twice *)
Theorem C107_twice_refuted : exists e s, define_all 20 e [TCls 0] st0 = Some s /\
  length (filter (fun d => (fst d =? 0)%nat && beq (snd d) (bs "next")) (defs s)) = 2%nat.
Proof. exists [(false, [(bs "next", [TPtr (TCls 0)])])]. eexists. split; vm_compute; reflexivity. Qed.
Print Assumptions C107_twice_refuted.

(** ** C108: [getClass] *)
Definition reg0 : reg := mkreg [] [].
(** the objects are those of the types that have an id, at their ids *)
Definition reg_ok (r : reg) : Prop :=
  (forall t i, id_of (ids r) t = Some i -> nth_error (classes r) i = Some t) /\
  (forall i t, nth_error (classes r) i = Some t -> id_of (ids r) t = Some i).
Lemma id_cons : forall l t u i, id_of ((u, i) :: l) t = if (t =? u)%nat then Some i else id_of l t.
Proof. reflexivity. Qed.
Lemma getClass_ok : forall t r, reg_ok r -> exists i r', getClass t r = (Got i, r') /\ reg_ok r' /\
  nth_error (classes r') i = Some t /\ (exists l, classes r' = classes r ++ l) /\
  (forall u j, id_of (ids r) u = Some j -> id_of (ids r') u = Some j) /\ id_of (ids r') t = Some i.
Proof.
  intros t r (A & B). unfold getClass. destruct (id_of (ids r) t) as [i|] eqn:E.
  - pose proof (A t i E) as N. assert (L : (i < length (classes r))%nat) by (apply nth_error_Some; congruence).
    destruct (Nat.ltb_spec (length (classes r)) i); [lia|]. destruct (Nat.eqb_spec i (length (classes r))); [lia|].
    rewrite N, Nat.eqb_refl. exists i, r. repeat split; auto. exists []. now rewrite app_nil_r.
  - cbn [classes ids]. rewrite Nat.ltb_irrefl, Nat.eqb_refl. cbn [classes ids].
    assert (N : nth_error (classes r ++ [t]) (length (classes r)) = Some t) by (rewrite nth_error_app2, Nat.sub_diag by lia; reflexivity).
    rewrite N, Nat.eqb_refl. eexists _, _. split; [reflexivity|]. cbn [classes ids]. split; [split|].
    + intros u j. cbn [classes ids]. rewrite id_cons. destruct (Nat.eqb_spec u t) as [->|]; intros H.
      * injection H as <-. exact N.
      * apply A in H. rewrite nth_error_app1; [exact H|]. apply nth_error_Some. congruence.
    + intros j u. cbn [classes ids]. rewrite id_cons. destruct (Nat.lt_ge_cases j (length (classes r))) as [L|L].
      * rewrite nth_error_app1 by exact L. intros H. apply B in H. destruct (Nat.eqb_spec u t) as [->|]; [congruence|exact H].
      * rewrite nth_error_app2 by exact L. destruct (j - length (classes r))%nat eqn:J; cbn; [|destruct n; discriminate].
        intros H. injection H as <-. rewrite Nat.eqb_refl. f_equal. lia.
    + split; [exact N|]. split; [now exists [t]|]. split; [|now rewrite id_cons, Nat.eqb_refl].
      intros u j H. rewrite id_cons. destruct (Nat.eqb_spec u t) as [->|]; [congruence|exact H].
Qed.
(** C108: as long as the registry is not cleared every type has one class object, the same at every call,
    and no two types share one *)
Lemma calls_ok : forall ts r, reg_ok r ->
  let '(gs, r') := calls (map CGet ts) r in
  reg_ok r' /\ (exists l, classes r' = classes r ++ l) /\
  (forall u j, id_of (ids r) u = Some j -> id_of (ids r') u = Some j) /\
  Forall2 (fun t g => exists i, g = Got i /\ id_of (ids r') t = Some i) ts gs.
Proof.
  induction ts as [|t ts IH]; intros r H; cbn [map calls].
  - split; [exact H|]. split; [exists []; now rewrite app_nil_r|]. split; [auto|constructor].
  - destruct (getClass_ok t r H) as (i & r1 & -> & H1 & N & (l & L) & K & T). specialize (IH r1 H1).
    destruct (calls (map CGet ts) r1) as [gs r2]. destruct IH as (H2 & (l2 & L2) & K2 & F).
    split; [exact H2|]. split; [exists (l ++ l2); now rewrite L2, L, app_assoc|]. split; [auto|].
    constructor; [exists i; auto|exact F].
Qed.
Theorem C108_registry : forall ts gs r, calls (map CGet ts) reg0 = (gs, r) ->
  length gs = length ts /\
  (forall k t, nth_error ts k = Some t -> exists i, nth_error gs k = Some (Got i) /\ nth_error (classes r) i = Some t) /\
  (forall j k t u g, nth_error ts j = Some t -> nth_error ts k = Some u -> nth_error gs j = Some g -> (nth_error gs k = Some g <-> t = u)) /\
  NoDup (classes r).
Proof.
  intros ts gs r E. assert (H0 : reg_ok reg0) by (split; cbn; intros; [discriminate|destruct i; discriminate]).
  pose proof (calls_ok ts reg0 H0) as H. rewrite E in H. destruct H as ((A & B) & _ & _ & F).
  assert (G : forall k t, nth_error ts k = Some t -> exists i, nth_error gs k = Some (Got i) /\ id_of (ids r) t = Some i).
  { clear - F. induction F as [|t g ts gs (i & -> & I) F IH]; intros [|k] u H; cbn in H; try discriminate.
    - injection H as <-. exists i. auto.
    - apply IH in H. exact H. }
  split; [|split; [|split]].
  - clear - F. induction F; cbn; congruence.
  - intros k t H. destruct (G k t H) as (i & X & Y). exists i. auto.
  - intros j k t u g J K GJ. destruct (G j t J) as (i & X & Y). destruct (G k u K) as (i' & X' & Y').
    rewrite X in GJ. injection GJ as <-. rewrite X'. split.
    + intros Q. injection Q as ->. apply A in Y, Y'. congruence.
    + intros ->. congruence.
  - apply NoDup_nth_error. intros i j L Q. destruct (nth_error (classes r) i) as [t|] eqn:N; [|apply nth_error_None in N; lia].
    symmetry in Q. apply B in N, Q. congruence.
Qed.
Print Assumptions C108_registry.
Example C108_registry_ex : calls (map CGet [5; 7; 5]%nat) reg0 = ([Got 0; Got 1; Got 0], mkreg [5; 7]%nat [(7, 1); (5, 0)]%nat).
Proof. reflexivity. Qed.
(** C108: what is returned is never the class object of another type, even when the registry is cleared *)
Theorem C108_type : forall t r i r', getClass t r = (Got i, r') -> nth_error (classes r') i = Some t.
Proof.
  intros t r i r'. unfold getClass. destruct (match id_of (ids r) t with Some _ => _ | None => _ end) as [j r1].
  destruct (_ <? _)%nat; [discriminate|]. destruct (nth_error _ j) as [u|] eqn:N; [|discriminate].
  destruct (Nat.eqb_spec u t) as [->|]; [|discriminate]. intros H. injection H as <- <-. exact N.
Qed.
Print Assumptions C108_type.
Example C108_type_ex : fst (getClass 5 (clear (snd (getClass 5 reg0)))) = Got 0.
Proof. reflexivity. Qed.
(** C108: after the registry is cleared a class with another number than the next one is refused *)
Theorem C108_cleared : forall t r i, id_of (ids r) t = Some i -> (0 < i)%nat -> fst (getClass t (clear r)) = Invalid.
Proof. intros t r i H L. unfold getClass, clear. cbn [ids classes]. rewrite H. cbn [length classes]. destruct i; [lia|reflexivity]. Qed.
Print Assumptions C108_cleared.
Example C108_cleared_ex : id_of (ids (snd (calls (map CGet [5; 7]%nat) reg0))) 7 = Some 1%nat.
Proof. reflexivity. Qed.
(** C108: the message "classes registry no longer valid" is not given when a new class has taken the number:
    then there is std::bad_cast *)
Theorem C108_cast_refuted : exists cs gs r, calls cs reg0 = (gs, r) /\ cs = [CGet 5; CClear; CGet 7; CGet 5]%nat /\ gs = [Got 0; Got 0; BadCast].
Proof. eexists _, _, _. split; [|split; [reflexivity|reflexivity]]. reflexivity. Qed.
Print Assumptions C108_cast_refuted.

(** ** C109: containers *)
Lemma getItem_nth : forall (A : Type) (c : list A) n, getItem c n = nth_error c n.
Proof. intros. unfold getItem. destruct (Nat.leb_spec (length c) n); [|reflexivity]. symmetry. now apply nth_error_None. Qed.
(** C109: [c[n]] is the element, IndexError outside, and iterating gives the elements in order and stops *)
Theorem C109_get : forall (A : Type) (c : list A) n, getItem c n = nth_error c n.
Proof. exact getItem_nth. Qed.
Print Assumptions C109_get.
Example C109_get_ex : getItem [7; 8]%Z 1 = Some 8%Z /\ getItem [7; 8]%Z 2 = None.
Proof. split; reflexivity. Qed.
Theorem C109_iterate : forall (A : Type) (c : list A) f, (length c < f)%nat -> py_iter f (getItem c) 0 = Some c.
Proof.
  assert (G : forall (A : Type) (c : list A) f i, (length c < f + i)%nat -> (i <= length c)%nat -> py_iter f (getItem c) i = Some (skipn i c)).
  { induction f as [|f IH]; intros i L K; [lia|]. cbn [py_iter]. rewrite getItem_nth. destruct (nth_error c i) as [x|] eqn:E.
    - assert (i < length c)%nat by (apply nth_error_Some; congruence). rewrite IH by lia. f_equal.
      clear - E. revert i E. induction c as [|y c IHc]; intros [|i] E; cbn in E; try discriminate.
      + injection E as ->. reflexivity.
      + cbn [skipn]. now apply IHc.
    - apply nth_error_None in E. now rewrite skipn_all2 by lia. }
  intros A c f L. rewrite G by lia. reflexivity.
Qed.
Print Assumptions C109_iterate.
Example C109_iterate_ex : py_iter 4 (getItem [7; 8; 9]%Z) 0 = Some [7; 8; 9]%Z.
Proof. reflexivity. Qed.
(** C109: assigning to an element of basic type changes just that one, or is refused *)
Lemma upd_spec : forall (A : Type) (c : list A) n v m, (n < length c)%nat -> nth_error (upd c n v) m = if (m =? n)%nat then Some v else nth_error c m.
Proof.
  induction c as [|x c IH]; intros n v m L; cbn in L; [lia|]. destruct n as [|n], m as [|m]; cbn; auto. apply IH. lia.
Qed.
Lemma upd_length : forall (A : Type) (c : list A) n v, length (upd c n v) = length c.
Proof. induction c as [|x c IH]; intros [|n] v; cbn; auto. Qed.
Theorem C109_set : forall (A : Type) (c : list A) n v,
  match setItem true c n v with
  | Some c' => (n < length c)%nat /\ length c' = length c /\ forall m, nth_error c' m = if (m =? n)%nat then Some v else nth_error c m
  | None => (length c <= n)%nat
  end.
Proof.
  intros. unfold setItem. destruct (Nat.leb_spec (length c) n); [assumption|]. split; [assumption|].
  split; [apply upd_length|]. intros m. now apply upd_spec.
Qed.
Print Assumptions C109_set.
Example C109_set_ex : setItem true [1; 2; 3]%Z 1 9%Z = Some [1; 9; 3]%Z /\ setItem true [1; 2; 3]%Z 3 9%Z = None.
Proof. split; reflexivity. Qed.
(** C109: an assignment to an element of class type does nothing, without an error, whatever the index *)
Theorem C109_set_class : forall (A : Type) (c : list A) n v, setItem false c n v = Some c.
Proof. reflexivity. Qed.
Print Assumptions C109_set_class.
(** C109: an assignment to an element of class type is silently ignored *)
Theorem C109_set_refuted : exists (c : list Z) n v c', setItem false c n v = Some c' /\ nth_error c' n <> Some v.
Proof. exists [1]%Z, 0%nat, 2%Z, [1]%Z. split; [reflexivity|discriminate]. Qed.
Print Assumptions C109_set_refuted.
(** C109: assigning a list gives its elements in order, or leaves the container as it was *)
Theorem C109_list : forall (A B : Type) (ex : B -> option A) x ys,
  (exists zs, Forall2 (fun y z => ex y = Some z) ys zs /\ assignList ex x ys = (zs, false)) \/
  (exists y, In y ys /\ ex y = None /\ assignList ex x ys = (x, true)).
Proof.
  intros A B ex x ys. assert (G : forall ys acc, (exists zs, Forall2 (fun y z => ex y = Some z) ys zs /\ convertListTo ex ys acc = Some (acc ++ zs)) \/
    (exists y, In y ys /\ ex y = None /\ convertListTo ex ys acc = None)).
  { clear. induction ys as [|y ys IH]; intros acc.
    - left. exists []. split; [constructor|cbn; now rewrite app_nil_r].
    - cbn [convertListTo]. destruct (ex y) as [a|] eqn:E.
      + destruct (IH (acc ++ [a])) as [(zs & F & C)|(z & I & N & C)].
        * left. exists (a :: zs). split; [now constructor|]. rewrite C, <- app_assoc. reflexivity.
        * right. exists z. split; [now right|auto].
      + right. exists y. split; [now left|auto]. }
  unfold assignList. destruct (G ys []) as [(zs & F & ->)|(y & I & N & ->)].
  - left. exists zs. auto.
  - right. exists y. auto.
Qed.
Print Assumptions C109_list.
Example C109_list_ex : assignList (fun n => if (n <? 10)%Z then Some n else None) [1]%Z [2; 3]%Z = ([2; 3]%Z, false) /\
  assignList (fun n => if (n <? 10)%Z then Some n else None) [1]%Z [2; 30]%Z = ([1]%Z, true).
Proof. split; reflexivity. Qed.
(** C109: maps behave as maps, and iterating gives the keys in order *)
Theorem C109_map : forall (V : Type) (x : list (list ascii * V)) k v j,
  getMapItem (setMapItem x k v) j = if beq j k then Some v else getMapItem x j.
Proof.
  intros. unfold getMapItem, setMapItem. destruct (beq j k) eqn:B.
  - apply beq_eq in B. subst. apply (mfind_mset_same bcmp bcmp_eq).
  - apply (mfind_mset_other bcmp bcmp_eq). intros ->. rewrite beq_refl in B. discriminate.
Qed.
Print Assumptions C109_map.
Example C109_map_ex : getMapItem (setMapItem [] (bs "b") 1%Z) (bs "b") = Some 1%Z /\ getMapItem (setMapItem [] (bs "b") 1%Z) (bs "c") = None.
Proof. vm_compute. auto. Qed.
Theorem C109_keys : forall (V : Type) (x : list (list ascii * V)) f, (length x < f)%nat -> keys_of f x = Some (map fst x).
Proof.
  intros V x f. revert x. induction f as [|f IH]; intros x L; [lia|]. cbn [keys_of]. destruct x as [|[k v] x]; [reflexivity|].
  cbn [next]. cbn in L. rewrite IH by lia. reflexivity.
Qed.
Print Assumptions C109_keys.
Example C109_keys_ex : keys_of 3 (setMapItem (setMapItem [] (bs "b") 1%Z) (bs "a") 2%Z) = Some [bs "a"; bs "b"].
Proof. vm_compute. reflexivity. Qed.

(** C109: arrays of any rank, indices in range: the element is the one in row-major order *)
Fixpoint in_range (dims is : list nat) : Prop :=
  match dims, is with [], [] => True | d :: ds, i :: js => (i < d)%nat /\ in_range ds js | _, _ => False end.
Fixpoint row_major (dims is : list nat) : nat :=
  match dims, is with _ :: ds, i :: js => (i * prod ds + row_major ds js)%nat | _, _ => 0%nat end.
Lemma row_major_lt : forall dims is, in_range dims is -> (row_major dims is < prod dims)%nat.
Proof.
  induction dims as [|d ds IH]; intros [|i js] H; cbn [in_range] in H; try contradiction; cbn [row_major prod fold_right]; [lia|].
  destruct H as [L H]. specialize (IH js H). fold (prod ds). nia.
Qed.
Theorem C109_array : forall dims is mem off, dims <> [] -> in_range dims is -> (off + prod dims <= length mem)%nat ->
  exists v, nth_error mem (off + row_major dims is) = Some v /\ aindex mem off dims is = AElem v.
Proof.
  induction dims as [|d ds IH]; intros is mem off NE R L; [congruence|]. destruct is as [|i js]; [contradiction|].
  destruct R as [I R]. cbn [aindex aget]. destruct (Nat.ltb_spec i d); [|lia]. destruct ds as [|d' ds].
  - destruct js as [|j js]; [|contradiction]. cbn [row_major prod fold_right] in *.
    replace (off + (i * 1 + 0))%nat with (off + i)%nat by lia.
    destruct (nth_error mem (off + i)) as [v|] eqn:N; [|apply nth_error_None in N; lia]. exists v. auto.
  - destruct (IH js mem (off + i * prod (d' :: ds))%nat) as (v & N & A); [discriminate|exact R| |].
    + cbn [prod fold_right] in L. fold (prod (d' :: ds)) in L. change (d' * fold_right Nat.mul 1 ds)%nat with (prod (d' :: ds)) in L. nia.
    + exists v. split; [|exact A]. rewrite <- N. f_equal. cbn [row_major]. destruct js; lia.
Qed.
Print Assumptions C109_array.
Example C109_array_ex : in_range [2; 3]%nat [1; 2]%nat /\ (0 + prod [2; 3] <= length [0; 1; 2; 3; 4; 5]%Z)%nat /\ aindex [0; 1; 2; 3; 4; 5]%Z 0 [2; 3]%nat [1; 2]%nat = AElem 5.
Proof. cbn. repeat split; lia. Qed.
(** C109: and assigning changes just that element *)
Theorem C109_array_set : forall dims is mem off v, dims <> [] -> in_range dims is -> (off + prod dims <= length mem)%nat ->
  aassign mem off dims is v = ASet (upd mem (off + row_major dims is) v).
Proof.
  induction dims as [|d ds IH]; intros is mem off v NE R L; [congruence|]. destruct is as [|i js]; [contradiction|].
  destruct R as [I R]. destruct ds as [|d' ds].
  - destruct js as [|j js]; [|contradiction]. cbn [aassign aset row_major prod fold_right] in *.
    destruct (Nat.ltb_spec i d); [|lia]. destruct (Nat.ltb_spec (off + i) (length mem)); [|lia]. cbn [andb]. do 2 f_equal. lia.
  - destruct js as [|j js]; [contradiction|].
    change (aassign mem off (d :: d' :: ds) (i :: j :: js) v) with
      (match aget mem off (d :: d' :: ds) i with AView o es => aassign mem o es (j :: js) v | AUB => ASetUB | _ => ASetThrow end).
    cbn [aget]. destruct (Nat.ltb_spec i d); [|lia].
    rewrite IH; [|discriminate|exact R|].
    + do 2 f_equal. cbn [row_major]. lia.
    + change (prod (d :: d' :: ds)) with (d * prod (d' :: ds))%nat in L. nia.
Qed.
Print Assumptions C109_array_set.
Example C109_array_set_ex : aassign [0; 1; 2; 3; 4; 5]%Z 0 [2; 3]%nat [1; 0]%nat 9 = ASet [0; 1; 2; 9; 4; 5]%Z.
Proof. reflexivity. Qed.
(** C109: an index outside is undefined behaviour, for every array *)
Theorem C109_array_bounds : forall mem off d ds i, (d <= i)%nat -> aget mem off (d :: ds) i = AUB.
Proof. intros. unfold aget. destruct (Nat.ltb_spec i d); [lia|reflexivity]. Qed.
Print Assumptions C109_array_bounds.
Example C109_array_bounds_ex : (3 <= 3)%nat /\ aget [1; 2; 3; 4]%Z 0 [3]%nat 3 = AUB.
Proof. split; [lia|reflexivity]. Qed.
(** C109: a[3] of an array of three elements is undefined behaviour, not an IndexError *)
Theorem C109_array_refuted : exists mem, length mem = 3%nat /\ aindex mem 0 [3]%nat [3]%nat = AUB.
Proof. exists [1; 2; 3]%Z. split; reflexivity. Qed.
Print Assumptions C109_array_refuted.
(** C109: and iterating over an array always gets there *)
Theorem C109_array_iter : forall f mem off d ds i, (i <= d)%nat -> (d - i < f)%nat -> a_iter f mem off (d :: ds) i = IUB.
Proof.
  induction f as [|f IH]; intros mem off d ds i L F; [lia|]. cbn [a_iter]. destruct (Nat.eq_dec i d) as [->|N].
  - rewrite C109_array_bounds by lia. reflexivity.
  - destruct (aget mem off (d :: ds) i) eqn:E; try reflexivity.
    + rewrite IH by lia. reflexivity.
    + rewrite IH by lia. reflexivity.
    + exfalso. unfold aget in E. destruct (i <? d)%nat; [|discriminate]. destruct ds; [destruct (nth_error _ _); discriminate|discriminate].
Qed.
Print Assumptions C109_array_iter.
Example C109_array_iter_ex : (0 <= 3)%nat /\ (3 - 0 < 4)%nat /\ a_iter 4 [1; 2; 3]%Z 0 [3]%nat 0 = IUB.
Proof. split; [lia|]. split; [lia|reflexivity]. Qed.

(** * Properties of the Python module built from a registry *)
From Coq Require Import Permutation.
From Verif Require Import Base SMap Desc_Model Desc_Props PyBuf_Model PyBuf_Proofs PyReg_Model.

(** ** Specification: which command an attribute path leads to *)
Definition get (reg : registry) (k : list ascii) : option nat :=
  match mfind bcmp k reg with Some (Some c) => Some c | _ => None end.
(** attribute [n] of the object whose members have keys beginning with [P]: the key, the
    command, and whether the key is an @-key.  The attribute _x is the key _x or, if there is
    none, the key @x. *)
Definition find1 (reg : registry) (P n : list ascii) : option (list ascii * nat * bool) :=
  let plain := match get reg (P ++ n) with Some c => Some (P ++ n, c, false) | None => None end in
  if hasdot n then None
  else match n with
       | x :: r =>
           if ascii_dec x at_ then None
           else if ascii_dec x under then
             match plain with
             | Some e => Some e
             | None => match get reg (P ++ at_ :: r) with Some c => Some (P ++ at_ :: r, c, true) | None => None end
             end
           else plain
       | [] => plain
       end.
Fixpoint resolve (reg : registry) (P : list ascii) (names : list (list ascii)) : option (nat * bool) :=
  match names with
  | [] => None
  | n :: ns =>
      match find1 reg P n with
      | None => None
      | Some (key, c, sp) => match ns with [] => Some (c, sp) | _ => resolve reg (key ++ [dot]) ns end
      end
  end.
Definition goodreg (reg : registry) : Prop :=
  msorted bcmp reg /\ Forall (fun kv => ~ In nul (fst kv)) reg.
Definition what (w : wrapper) : nat * bool := (cmd w, special w).

(** ** Proofs *)
Lemma after_spec : forall P k m, after P k = Some m <-> k = P ++ m.
Proof.
  induction P as [|a P IH]; intros k m; cbn [after app].
  - split; congruence.
  - destruct k as [|b k]; [split; discriminate|]. destruct (ascii_dec a b) as [->|D].
    + rewrite IH. split; congruence.
    + split; [discriminate|]. intros E. congruence.
Qed.
Lemma hasdot_spec : forall s, hasdot s = true <-> In dot s.
Proof. intros. unfold hasdot. destruct (in_dec ascii_dec dot s); split; auto; discriminate. Qed.
Definition rename (m : list ascii) : list ascii * bool :=
  match m with x :: r => if ascii_dec x at_ then (under :: r, true) else (m, false) | [] => ([], false) end.
Lemma entry_spec : forall P k o e, ~ In nul k -> entry P (k, o) = Some e <->
  exists m c, k = P ++ m /\ o = Some c /\ ~ In dot m /\ e = (fst (rename m), k, c, snd (rename m)).
Proof.
  intros P k o e NN. unfold entry. cbn [fst snd]. split.
  - destruct o as [c|]; [|discriminate]. destruct (after P k) as [m|] eqn:A; [|discriminate].
    apply after_spec in A. destruct (hasdot m) eqn:D; [discriminate|].
    assert (ND : ~ In dot m) by (rewrite <- hasdot_spec; congruence).
    assert (NM : ~ In nul m) by (intros F; apply NN; subst; apply in_or_app; now right).
    intros E. exists m, c. split; [exact A|]. split; [reflexivity|]. split; [exact ND|].
    destruct m as [|x r]; cbn [rename fst snd] in *; [congruence|].
    destruct (ascii_dec x at_); cbn [fst snd]; rewrite cstr_id in E; try congruence.
    intros [F|F]; [discriminate|]. apply NM. now right.
  - intros (m & c & -> & -> & ND & ->).
    assert (NM : ~ In nul m) by (intros F; apply NN; apply in_or_app; now right).
    rewrite (proj2 (after_spec P (P ++ m) m) eq_refl).
    destruct (hasdot m) eqn:D; [apply hasdot_spec in D; contradiction|].
    destruct m as [|x r]; cbn [rename fst snd]; [reflexivity|].
    destruct (ascii_dec x at_); cbn [fst snd]; rewrite cstr_id; try reflexivity; auto.
    intros [F|F]; [discriminate|]. apply NM. now right.
Qed.

Definition sel (P n : list ascii) (kv : list ascii * option nat) : bool :=
  match entry P kv with Some (name, _, _, _) => beq name n | None => false end.
Lemma bcmp_ne : forall a b, a <> b -> bcmp a b <> Eq.
Proof. intros a b N E. apply N. now apply bcmp_eq. Qed.
Section Fold.
Variable f : nat.
Variable reg : registry.
Variable P : list ascii.
Let step := fun (acc : option (list (list ascii * wrapper))) (kv : list ascii * option nat) =>
        match acc, entry P kv with
        | Some a, Some (name, key, c, sp) =>
            match attach_f f reg (key ++ [dot]) with
            | Some ms => Some (mset bcmp name (Wrap c sp ms) a)
            | None => None
            end
        | _, _ => acc
        end.
Lemma fold_none : forall l, fold_left step l None = None.
Proof. induction l; [reflexivity|]. cbn. exact IHl. Qed.
(** the last matching entry counts *)
Lemma fold_find : forall l a n, fold_left step l (Some []) = Some a ->
  match find (sel P n) (rev l) with
  | None => mfind bcmp n a = None
  | Some kv => exists key c sp ms, entry P kv = Some (n, key, c, sp) /\ attach_f f reg (key ++ [dot]) = Some ms /\
                 mfind bcmp n a = Some (Wrap c sp ms)
  end.
Proof.
  induction l as [|kv l IH] using rev_ind; intros a n E.
  - cbn in E. injection E as <-. reflexivity.
  - rewrite fold_left_app in E. cbn [fold_left] in E. rewrite rev_app_distr. cbn [rev app find].
    destruct (fold_left step l (Some [])) as [b|] eqn:Eb; [|discriminate]. specialize (IH b n eq_refl).
    unfold sel at 1. unfold step in E.
    destruct (entry P kv) as [(((name & key) & c) & sp)|] eqn:En.
    + destruct (attach_f f reg (key ++ [dot])) as [ms|] eqn:Ea; [|discriminate]. injection E as <-.
      destruct (beq name n) eqn:B.
      * apply beq_eq in B. subst name. exists key, c, sp, ms. split; [exact En|]. split; [exact Ea|].
        apply (mfind_mset_same bcmp bcmp_eq).
      * assert (N : n <> name) by (intros ->; rewrite beq_refl in B; discriminate).
        rewrite (mfind_mset_other bcmp bcmp_eq) by exact N. exact IH.
    + injection E as <-. exact IH.
Qed.
End Fold.
Lemma find_rev_split : forall A (g : A -> bool) l x, find g (rev l) = Some x ->
  exists l1 l2, l = l1 ++ x :: l2 /\ g x = true /\ forall y, In y l2 -> g y = false.
Proof.
  induction l as [|a l IH] using rev_ind; intros x E; [discriminate|].
  rewrite rev_app_distr in E. cbn [rev app find] in E. destruct (g a) eqn:G.
  - injection E as <-. exists l, []. split; [reflexivity|]. split; [exact G|]. intros y [].
  - destruct (IH x E) as (l1 & l2 & -> & Gx & N). exists l1, (l2 ++ [a]). split; [now rewrite <- app_assoc|].
    split; [exact Gx|]. intros y Y. apply in_app_or in Y. destruct Y as [Y|[<-|[]]]; auto.
Qed.
Lemma sorted_find : forall (reg : registry) k v, msorted bcmp reg -> In (k, v) reg -> mfind bcmp k reg = Some v.
Proof.
  induction reg as [|[k1 v1] reg IH]; intros k v S1 I1; [destruct I1|]. cbn [mfind].
  destruct I1 as [[= -> ->]|I1].
  - rewrite (cmp_refl bcmp bcmp_eq). reflexivity.
  - pose proof (sorted_all _ reg k1 v1 S1 k) as L.
    assert (I2 : In k (map fst reg)) by (apply in_map_iff; exists (k, v); auto).
    specialize (L I2). rewrite bcmp_antisym, L. cbn [CompOpp]. apply IH; [|exact I1]. cbn [msorted] in S1. tauto.
Qed.
Lemma find_sorted : forall (reg : registry) k v, mfind bcmp k reg = Some v -> In (k, v) reg.
Proof.
  induction reg as [|[k1 v1] reg IH]; intros k v; cbn [mfind]; [discriminate|].
  destruct (bcmp k k1) eqn:E; intros F; [|right; now apply IH..].
  apply bcmp_eq in E. injection F as ->. subst. now left.
Qed.
Lemma bcmp_app : forall P a b, bcmp (P ++ a) (P ++ b) = bcmp a b.
Proof. induction P as [|c P IH]; intros a b; [reflexivity|]. cbn [app bcmp]. rewrite N.compare_refl. apply IH. Qed.
Lemma sorted_app_lt : forall (l1 l2 : registry) k v, msorted bcmp (l1 ++ (k, v) :: l2) ->
  forall k', In k' (map fst l1) -> bcmp k' k = Lt.
Proof.
  induction l1 as [|[k1 v1] l1 IH]; intros l2 k v S1 k' I1; [destruct I1|]. cbn [map fst In] in I1.
  destruct I1 as [<-|I1].
  - cbn [app] in S1. eapply sorted_all; [exact S1|]. rewrite map_app. apply in_or_app. right. now left.
  - eapply IH; [|exact I1]. cbn [app msorted] in S1. apply S1.
Qed.
Lemma find_spec : forall reg P n, goodreg reg ->
  match find (sel P n) (rev reg) with
  | Some kv => match entry P kv with Some (_, key, c, sp) => find1 reg P n = Some (key, c, sp) | None => False end
  | None => find1 reg P n = None
  end.
Proof.
  intros reg P n [S1 NN].
  assert (NNk : forall k o, In (k, o) reg -> ~ In nul k).
  { intros k o I1. rewrite Forall_forall in NN. exact (NN (k, o) I1). }
  assert (G : forall k c, get reg k = Some c <-> In (k, Some c) reg).
  { intros k c. unfold get. split.
    - destruct (mfind bcmp k reg) as [[d|]|] eqn:E; try discriminate. intros [= ->]. now apply find_sorted.
    - intros I1. now rewrite (sorted_find reg k (Some c) S1 I1). }
  assert (SEL : forall m c, In (P ++ m, Some c) reg -> ~ In dot m -> fst (rename m) = n -> sel P n (P ++ m, Some c) = true).
  { intros m c I1 ND E. unfold sel.
    rewrite (proj2 (entry_spec P (P ++ m) (Some c) (fst (rename m), P ++ m, c, snd (rename m)) (NNk _ _ I1))).
    - rewrite E. apply beq_refl.
    - exists m, c. auto. }
  destruct (find (sel P n) (rev reg)) as [[k o]|] eqn:F.
  - apply find_rev_split in F. destruct F as (l1 & l2 & Er & Sx & Lst).
    assert (I1 : In (k, o) reg) by (rewrite Er; apply in_or_app; right; now left).
    unfold sel in Sx. destruct (entry P (k, o)) as [(((name & key) & c) & sp)|] eqn:En; [|discriminate].
    apply beq_eq in Sx. subst name. apply (entry_spec P k o _ (NNk k o I1)) in En.
    destruct En as (m & c' & Ek & Eo & ND & Ee). injection Ee as E1 E2 E3 E4. subst k o c' key.
    assert (Gk : get reg (P ++ m) = Some c) by now apply G.
    unfold find1. destruct m as [|x r]; cbn [rename fst snd] in *.
    + subst n sp. cbn [hasdot]. unfold hasdot. destruct (in_dec ascii_dec dot []) as [[]|_]. now rewrite Gk.
    + destruct (ascii_dec x at_) as [->|Nx]; cbn [fst snd] in *.
      * subst n sp. destruct (hasdot (under :: r)) eqn:D.
        { apply hasdot_spec in D. exfalso. apply ND. destruct D as [D|D]; [discriminate|now right]. }
        destruct (ascii_dec under at_) as [E|_]; [discriminate|].
        destruct (ascii_dec under under) as [_|E]; [|congruence].
        destruct (get reg (P ++ under :: r)) as [c2|] eqn:G2; [exfalso|now rewrite Gk].
        apply G in G2.
        assert (S2 : sel P (under :: r) (P ++ under :: r, Some c2) = true).
        { apply SEL; [exact G2| |reflexivity]. intros [D2|D2]; [discriminate|]. apply ND. now right. }
        assert (LT : bcmp (P ++ at_ :: r) (P ++ under :: r) = Lt) by (rewrite bcmp_app; reflexivity).
        rewrite Er in G2. apply in_app_or in G2. destruct G2 as [G2|[G2|G2]].
        -- rewrite Er in S1. pose proof (sorted_app_lt l1 l2 _ _ S1 (P ++ under :: r)) as L.
           rewrite bcmp_antisym in L. rewrite LT in L. cbn in L. discriminate L.
           apply in_map_iff. exists (P ++ under :: r, Some c2). auto.
        -- injection G2 as E _. apply app_inv_head in E. discriminate.
        -- rewrite (Lst _ G2) in S2. discriminate.
      * subst n sp. destruct (hasdot (x :: r)) eqn:D; [apply hasdot_spec in D; contradiction|].
        destruct (ascii_dec x at_); [contradiction|]. rewrite Gk. now destruct (ascii_dec x under).
  - assert (NO : forall m c, fst (rename m) = n -> ~ In dot m -> get reg (P ++ m) <> Some c).
    { intros m c E ND Gm. apply G in Gm. pose proof (SEL m c Gm ND E) as S2.
      assert (Q : In (P ++ m, Some c) (rev reg)) by now apply in_rev in Gm.
      pose proof (find_none _ _ F _ Q) as S3. congruence. }
    unfold find1. destruct (hasdot n) eqn:D; [reflexivity|].
    assert (ND : ~ In dot n) by (rewrite <- hasdot_spec; congruence).
    destruct n as [|x r].
    + destruct (get reg (P ++ [])) as [c|] eqn:Gc; [|reflexivity]. exfalso. eapply (NO [] c); eauto.
    + destruct (ascii_dec x at_) as [->|Nx]; [reflexivity|].
      assert (PL : get reg (P ++ x :: r) = None).
      { destruct (get reg (P ++ x :: r)) as [c|] eqn:Gc; [|reflexivity]. exfalso. eapply (NO (x :: r) c); eauto.
        cbn [rename]. destruct (ascii_dec x at_); [contradiction|reflexivity]. }
      rewrite PL. destruct (ascii_dec x under) as [->|Nu]; [|reflexivity].
      destruct (get reg (P ++ at_ :: r)) as [c|] eqn:Gc; [|reflexivity]. exfalso. eapply (NO (at_ :: r) c); eauto.
      intros [E|E]; [discriminate|]. apply ND. now right.
Qed.
Lemma attach_total : forall f reg P, 1 <= f -> maxlen reg + 2 <= length P + f -> exists a, attach_f f reg P = Some a.
Proof.
  induction f as [|f IH]; intros reg P F1 F2; [lia|]. cbn [attach_f].
  assert (ML : forall kv, In kv reg -> length (fst kv) <= maxlen reg).
  { clear F1 F2. intros kv I1. unfold maxlen. induction reg as [|b reg IHr]; [destruct I1|]. cbn [map fold_right].
    destruct I1 as [->|I1]; [lia|]. pose proof (IHr I1) as Q. lia. }
  generalize (@nil (list ascii * wrapper)) as a0.
  assert (Q : forall l, incl l reg -> forall a0, exists a, fold_left (fun acc kv =>
        match acc, entry P kv with
        | Some a, Some (name, key, c, sp) =>
            match attach_f f reg (key ++ [dot]) with
            | Some ms => Some (mset bcmp name (Wrap c sp ms) a)
            | None => None
            end
        | _, _ => acc
        end) l (Some a0) = Some a).
  { induction l as [|kv l IHl]; intros IC a0; cbn [fold_left]; [eauto|].
    destruct (entry P kv) as [(((name & key) & c) & sp)|] eqn:En.
    - assert (K : key = fst kv /\ length P <= length (fst kv)).
      { unfold entry in En. destruct (snd kv); [|discriminate]. destruct (after P (fst kv)) as [m|] eqn:A; [|discriminate].
        apply after_spec in A. rewrite A, app_length. destruct (hasdot m); [discriminate|].
        destruct m as [|x m']; [injection En as <- <- <- <-; split; [congruence|lia]|].
        destruct (ascii_dec x at_); injection En as <- <- <- <-; (split; [congruence|lia]). }
      destruct K as [-> K]. pose proof (ML kv (IC kv (or_introl eq_refl))) as M.
      destruct (IH reg (fst kv ++ [dot])) as (ms & Ems); [lia|rewrite app_length; cbn [length]; lia|].
      rewrite Ems. apply IHl. intros z Z. apply IC. now right.
    - apply IHl. intros z Z. apply IC. now right. }
  intros a0. apply Q. intros z Z; exact Z.
Qed.
Lemma walk_resolve : forall reg, goodreg reg -> forall names f P a, attach_f f reg P = Some a ->
  option_map what (walk a names) = resolve reg P names.
Proof.
  intros reg GR. induction names as [|n ns IH]; intros f P a A; [reflexivity|]. cbn [walk resolve].
  destruct f as [|f]; [discriminate|]. cbn [attach_f] in A.
  pose proof (fold_find f reg P reg a n A) as FF. pose proof (find_spec reg P n GR) as FS.
  destruct (find (sel P n) (rev reg)) as [kv|].
  - destruct FF as (key & c & sp & ms & En & Ea & ->). rewrite En in FS. rewrite FS.
    destruct ns as [|n2 ns]; [reflexivity|]. cbn [methods]. eapply IH; eauto.
  - now rewrite FF, FS.
Qed.

(** C90. For every registry (no NUL in a name) the attributes attached to an object are
    exactly those that [resolve] describes: the path n1.n2...nk leads to the command whose
    key is P n1 . n2 . ... . nk, provided every shorter key is in the registry too. *)
Theorem C90_paths : forall reg P names, goodreg reg ->
  exists a, attach reg P = Some a /\ option_map what (walk a names) = resolve reg P names.
Proof.
  intros reg P names G. destruct (attach_total (S (S (maxlen reg))) reg P) as (a & A); [lia|lia|].
  exists a. split; [exact A|]. eapply walk_resolve; eauto.
Qed.
Print Assumptions C90_paths.
Definition ex_reg : registry :=
  [(bs "@enum.@list", Some 9); (bs "a", Some 1); (bs "a.@elem", Some 2); (bs "a.b", Some 3); (bs "a.b.c", Some 4);
   (bs "a.x.y", Some 5); (bs "z", None)].
Example C90_ex : goodreg ex_reg /\ exists a, attach ex_reg (bs "a.") = Some a /\
  option_map what (walk a [bs "b"; bs "c"]) = Some (4, false) /\
  option_map what (walk a [bs "_elem"]) = Some (2, true) /\ walk a [bs "@elem"] = None.
Proof.
  split.
  - split; [vm_compute; repeat split|]. unfold ex_reg. repeat (constructor; [vm_compute; intuition discriminate|]). constructor.
  - eexists. split; [vm_compute; reflexivity|]. vm_compute. auto.
Qed.

(** a key all of whose dotted prefixes are in the registry, none of its components
    beginning with @, is reached under its own name *)
Fixpoint joined (P : list ascii) (names : list (list ascii)) : list ascii :=
  match names with [] => P | [n] => P ++ n | n :: ns => joined (P ++ n ++ [dot]) ns end.
Fixpoint present (reg : registry) (P : list ascii) (names : list (list ascii)) : Prop :=
  match names with
  | [] => False
  | n :: ns => get reg (P ++ n) <> None /\ ~ In dot n /\ hd nul n <> at_ /\
               match ns with [] => True | _ => present reg (P ++ n ++ [dot]) ns end
  end.
Lemma find1_plain : forall reg P n c, get reg (P ++ n) = Some c -> ~ In dot n -> hd nul n <> at_ ->
  find1 reg P n = Some (P ++ n, c, false).
Proof.
  intros reg P n c G ND NA. unfold find1. destruct (hasdot n) eqn:D; [apply hasdot_spec in D; contradiction|].
  rewrite G. destruct n as [|x r]; [reflexivity|]. cbn [hd] in NA. destruct (ascii_dec x at_); [contradiction|].
  now destruct (ascii_dec x under).
Qed.
Theorem C90_reachable : forall reg P names, goodreg reg -> present reg P names ->
  exists a w, attach reg P = Some a /\ walk a names = Some w /\
    get reg (joined P names) = Some (cmd w) /\ special w = false.
Proof.
  intros reg P names G PR. destruct (C90_paths reg P names G) as (a & A & E).
  assert (Q : exists c, resolve reg P names = Some (c, false) /\ get reg (joined P names) = Some c).
  { clear A E. revert P PR. induction names as [|n ns IH]; intros P PR; [destruct PR|].
    cbn [present] in PR. destruct PR as (Gn & ND & NA & PR). cbn [resolve].
    destruct (get reg (P ++ n)) as [c|] eqn:Gc; [|congruence]. rewrite (find1_plain reg P n c Gc ND NA).
    destruct ns as [|n2 ns]; [exists c; split; [reflexivity|exact Gc]|].
    rewrite <- app_assoc. now apply IH. }
  destruct Q as (c & Rc & Gc). rewrite Rc in E. destruct (walk a names) as [w|] eqn:W; [|discriminate].
  cbn [option_map] in E. unfold what in E. injection E as E1 E2. exists a, w. rewrite E1. split; [exact A|]. split; [reflexivity || exact W|]. split; [exact Gc|exact E2].
Qed.
Print Assumptions C90_reachable.
Example C90_reachable_ex : present ex_reg (bs "a.") [bs "b"; bs "c"] /\
  get ex_reg (joined (bs "a.") [bs "b"; bs "c"]) = Some 4.
Proof.
  cbn [present]. split; [|vm_compute; reflexivity].
  repeat split; vm_compute; intuition discriminate.
Qed.
(** A registered name is unreachable from Python when the name before its last dot is not
    registered itself: a.x.y without a.x. *)
Theorem C90_orphan_refuted : exists reg key c, goodreg reg /\ get reg key = Some c /\ key = bs "a.x.y" /\
  exists a, attach reg (bs "a.") = Some a /\ forall names w, walk a names = Some w -> cmd w <> c.
Proof.
  exists [(bs "a", Some 1); (bs "a.b", Some 3); (bs "a.x.y", Some 5)], (bs "a.x.y"), 5.
  split; [split; [vm_compute; repeat split|]; repeat (constructor; [vm_compute; intuition discriminate|]); constructor|].
  split; [vm_compute; reflexivity|]. split; [reflexivity|]. eexists. split; [vm_compute; reflexivity|].
  intros [|n ns] w; [discriminate|]. cbn [walk mfind]. destruct (bcmp n _); try discriminate.
  destruct ns as [|n2 ns]; [intros [= <-]; vm_compute; discriminate|]. cbn [methods walk mfind]. discriminate.
Qed.
(** The command @x is hidden when there is a member _x: both become the attribute _x and
    the later one wins. *)
Theorem C90_collision_refuted : exists reg c, goodreg reg /\ get reg (bs "v.@elem") = Some c /\
  exists a, attach reg (bs "v.") = Some a /\ forall names w, walk a names = Some w -> cmd w <> c.
Proof.
  exists [(bs "v", Some 1); (bs "v.@elem", Some 2); (bs "v._elem", Some 3)], 2.
  split; [split; [vm_compute; repeat split|]; repeat (constructor; [vm_compute; intuition discriminate|]); constructor|].
  split; [vm_compute; reflexivity|]. eexists. split; [vm_compute; reflexivity|].
  intros [|n ns] w; [discriminate|]. cbn [walk mfind]. destruct (bcmp n _); try discriminate.
  destruct ns as [|n2 ns]; [intros [= <-]; vm_compute; discriminate|]. cbn [methods walk mfind]. discriminate.
Qed.

(** ** The module *)
Section Module.
Variable reg : registry.
Hypothesis G : goodreg reg.
Let step := fun (acc : option (list (list ascii * mobj))) (kv : list ascii * option nat) =>
        match acc, toplevel kv with
        | Some a, Some (key, c) =>
            match attach reg (key ++ [dot]) with
            | Some ms => Some (mset bcmp (cstr key) (MObj (Wrap c false ms)) a)
            | None => None
            end
        | _, _ => acc
        end.
Lemma toplevel_spec : forall k o key c, toplevel (k, o) = Some (key, c) <->
  key = k /\ o = Some c /\ k <> [] /\ ~ In dot k /\ hd nul k <> at_.
Proof.
  intros k o key c. unfold toplevel. cbn [fst snd]. destruct o as [d|]; [|split; [discriminate|intros (_ & E & _); discriminate]].
  destruct k as [|x k]; [split; [discriminate|intros (_ & _ & E & _); congruence]|].
  destruct (hasdot (x :: k)) eqn:D.
  - apply hasdot_spec in D. split; [discriminate|tauto].
  - assert (ND : ~ In dot (x :: k)) by (rewrite <- hasdot_spec; congruence). cbn [hd].
    destruct (ascii_dec x at_) as [->|N].
    + split; [discriminate|]. intros (_ & _ & _ & _ & N). congruence.
    + split; [intros [= <- <-]; repeat split; auto; discriminate|]. intros (-> & [= ->] & _). reflexivity.
Qed.
Lemma module_find : forall l, incl l reg -> msorted bcmp l -> forall a0, exists a, fold_left step l (Some a0) = Some a /\
  forall n, mfind bcmp n a =
    match mfind bcmp n l with
    | Some (Some c) =>
        if (match toplevel (n, Some c) with Some _ => true | None => false end)
        then match attach reg (n ++ [dot]) with Some ms => Some (MObj (Wrap c false ms)) | None => None end
        else mfind bcmp n a0
    | _ => mfind bcmp n a0
    end.
Proof using G.
  induction l as [|[k o] l IH]; intros IC S1 a0.
  - cbn. eauto.
  - assert (IC2 : incl l reg) by (intros z Z; apply IC; now right).
    assert (S2 : msorted bcmp l) by (cbn [msorted] in S1; tauto).
    assert (NK : ~ In nul k).
    { destruct G as [_ F]. rewrite Forall_forall in F. apply (F (k, o)). apply IC. now left. }
    assert (NL : mfind bcmp k l = None).
    { destruct (mfind bcmp k l) as [v|] eqn:E; [|reflexivity]. exfalso. apply find_sorted in E.
      pose proof (sorted_all _ l k o S1 k) as L. rewrite (cmp_refl bcmp bcmp_eq) in L.
      assert (In k (map fst l)) by (apply in_map_iff; exists (k, v); auto). specialize (L H). discriminate. }
    cbn [fold_left]. unfold step at 2. destruct (toplevel (k, o)) as [(key & c)|] eqn:T.
    + pose proof T as T'. apply toplevel_spec in T'. destruct T' as (-> & -> & _).
      destruct (attach_total (S (S (maxlen reg))) reg (k ++ [dot])) as (ms & A); [lia|lia|].
      fold (attach reg (k ++ [dot])) in A. rewrite A. rewrite cstr_id by exact NK.
      destruct (IH IC2 S2 (mset bcmp k (MObj (Wrap c false ms)) a0)) as (a & E & F). exists a. split; [exact E|].
      intros n. rewrite F. cbn [mfind]. destruct (bcmp n k) eqn:B.
      * apply bcmp_eq in B. subst n. rewrite NL, T, A. apply (mfind_mset_same bcmp bcmp_eq).
      * assert (n <> k) by (intros ->; rewrite (cmp_refl bcmp bcmp_eq) in B; discriminate).
        rewrite (mfind_mset_other bcmp bcmp_eq) by assumption. reflexivity.
      * assert (n <> k) by (intros ->; rewrite (cmp_refl bcmp bcmp_eq) in B; discriminate).
        rewrite (mfind_mset_other bcmp bcmp_eq) by assumption. reflexivity.
    + destruct (IH IC2 S2 a0) as (a & E & F). exists a. split; [exact E|].
      intros n. rewrite F. cbn [mfind]. destruct (bcmp n k) eqn:B; [|reflexivity..].
      apply bcmp_eq in B. subst n. rewrite NL. destruct o as [c|]; [|reflexivity]. now rewrite T.
Qed.
End Module.
(** C90. The module has one attribute for every registered name without a dot that is not
    empty and does not begin with @; the attribute path below it is resolved as above. *)
Theorem C90_module : forall reg, goodreg reg -> exists md, init_module reg = Some md /\
  forall n ns, n <> bs "enum" ->
  option_map what (module_walk md (n :: ns)) =
  match get reg n with
  | Some c => if hasdot n then None
              else match n with
                   | [] => None
                   | x :: _ => if ascii_dec x at_ then None
                               else match ns with [] => Some (c, false) | _ => resolve reg (n ++ [dot]) ns end
                   end
  | None => None
  end.
Proof.
  intros reg G. destruct (module_find reg G reg (fun z Z => Z) (proj1 G) []) as (a & E & F).
  unfold init_module. rewrite E. eexists. split; [reflexivity|]. intros n ns NE.
  cbn [module_walk]. rewrite (mfind_mset_other bcmp bcmp_eq) by exact NE. rewrite F. cbn [mfind]. unfold get.
  destruct (mfind bcmp n reg) as [[c|]|]; [|reflexivity..].
  unfold toplevel. cbn [fst snd]. destruct n as [|x n]; [now destruct (hasdot [])|].
  destruct (hasdot (x :: n)); [reflexivity|]. destruct (ascii_dec x at_); [reflexivity|].
  destruct (C90_paths reg ((x :: n) ++ [dot]) ns G) as (ms & A & W). rewrite A.
  destruct ns as [|n2 ns]; [reflexivity|]. exact W.
Qed.
Print Assumptions C90_module.
Example C90_module_ex : goodreg ex_reg /\ exists md, init_module ex_reg = Some md /\
  option_map what (module_walk md [bs "a"; bs "b"; bs "c"]) = Some (4, false) /\
  module_walk md [bs "z"] = None.
Proof.
  split; [exact (proj1 C90_ex)|]. eexists. split; [vm_compute; reflexivity|]. vm_compute. auto.
Qed.
(** A registered object called enum is replaced by the module's dictionary of enumerations. *)
Theorem C90_enum_refuted : exists reg md c, goodreg reg /\ get reg (bs "enum") = Some c /\ init_module reg = Some md /\
  forall ns, module_walk md (bs "enum" :: ns) = None.
Proof.
  exists [(bs "enum", Some 1)]. eexists. exists 1.
  split; [split; [vm_compute; repeat split|]; repeat (constructor; [vm_compute; intuition discriminate|]); constructor|].
  split; [vm_compute; reflexivity|]. split; [vm_compute; reflexivity|]. intros ns. reflexivity.
Qed.

(** ** Attributes and reference counts *)
Definition wsafe (o : wop) : Prop := match o with WSet _ _ | WInsert => False | _ => True end.
Definition WI (m : nat) (s : wst) : Prop := Inv (whp s) (repeat none m ++ live (pyv s) ++ map snd (mths s)).
Lemma mset_perm : forall n x (m : list (list ascii * nat)),
  match mfind bcmp n m with
  | None => Permutation (map snd (mset bcmp n x m)) (x :: map snd m)
  | Some y => Permutation (y :: map snd (mset bcmp n x m)) (x :: map snd m)
  end.
Proof.
  intros n x m. unfold mset. destruct (mfind bcmp n m) as [y|] eqn:E.
  - induction m as [|[k v] m IH]; cbn [mfind mreplace] in *; [discriminate|].
    destruct (bcmp n k); cbn [map snd].
    + injection E as ->. apply perm_swap.
    + rewrite perm_swap, IH by exact E. apply perm_swap.
    + rewrite perm_swap, IH by exact E. apply perm_swap.
  - clear E. induction m as [|[k v] m IH]; cbn [minsert]; [reflexivity|].
    destruct (bcmp n k); cbn [map snd]; try reflexivity. rewrite IH. apply perm_swap.
Qed.
Lemma mdel_perm : forall n y (m : list (list ascii * nat)), mfind bcmp n m = Some y ->
  Permutation (map snd m) (y :: map snd (mdel n m)).
Proof.
  induction m as [|[k v] m IH]; cbn [mfind mdel]; intros E; [discriminate|].
  destruct (bcmp n k) eqn:B.
  - apply bcmp_eq in B. subst. rewrite beq_refl. injection E as ->. reflexivity.
  - assert (beq k n = false) as -> by (unfold beq; rewrite bcmp_antisym, B; reflexivity).
    cbn [map snd]. rewrite IH by exact E. apply perm_swap.
  - assert (beq k n = false) as -> by (unfold beq; rewrite bcmp_antisym, B; reflexivity).
    cbn [map snd]. rewrite IH by exact E. apply perm_swap.
Qed.
Ltac permby P := apply (Permutation_count_occ Nat.eq_dec); let z := fresh "z" in intros z;
  change (count_occ Nat.eq_dec) with cnt; let C := fresh "C" in pose proof (cnt_perm _ _ P z) as C;
  cbn [app] in *; repeat (rewrite cnt_cons in * || rewrite cnt_app in * || rewrite cnt_nil in * ); lia.
Lemma set_attr_ok : forall m n x h vs ms, Inv h (x :: repeat none m ++ live vs ++ map snd ms) ->
  exists s', set_attr n x (mkwst h vs ms) = WOk s' /\ WI m s'.
Proof.
  intros m n x h vs ms I1. unfold set_attr. cbn [mths whp pyv]. pose proof (mset_perm n x ms) as P.
  destruct (mfind bcmp n ms) as [y|].
  - destruct (decref_ok y h (repeat none m ++ live vs ++ map snd (mset bcmp n x ms))) as (h' & E & I2 & _).
    { eapply Inv_perm; [|exact I1]. permby P. }
    rewrite E. eexists. split; [reflexivity|]. exact I2.
  - eexists. split; [reflexivity|]. unfold WI. cbn [whp pyv mths]. eapply Inv_perm; [|exact I1]. permby P.
Qed.
Lemma wstep_ok : forall m s o, wsafe o -> WI m s -> exists s', wstep s o = WOk s' /\ WI m s'.
Proof.
  intros m [h vs ms] o OK I1. unfold WI in I1. cbn [whp pyv mths] in I1.
  destruct o as [|k|n|n k|n|n|]; cbn [wstep whp pyv mths] in *; try contradiction.
  - destruct (alloc_ok (PInt 0) h _ I1) as (x & h' & E & I2 & _). rewrite E. eexists. split; [reflexivity|].
    unfold WI. cbn [whp pyv mths]. rewrite live_app. cbn [live flat_map]. eapply Inv_perm; [|exact I2]. perm.
  - destruct (pvar _ k) as [x|] eqn:V; [|eexists; split; [reflexivity|exact I1]].
    unfold pvar in V. cbn [pyv] in V. destruct (nth_error vs k) as [[y|]|] eqn:N; try discriminate. injection V as ->.
    pose proof (live_setv vs k x None N) as P. cbn [app] in P.
    destruct (decref_ok x h (repeat none m ++ live (setv vs k None) ++ map snd ms)) as (h' & E & I2 & _).
    { eapply Inv_perm; [|exact I1]. permby P. }
    rewrite E. eexists. split; [reflexivity|]. exact I2.
  - destruct (alloc_ok (PInt 0) h _ I1) as (x & h' & E & I2 & _). rewrite E. now apply set_attr_ok.
  - destruct (mfind bcmp n ms) as [y|] eqn:F; [|eexists; split; [reflexivity|exact I1]].
    pose proof (mdel_perm n y ms F) as P.
    destruct (decref_ok y h (repeat none m ++ live vs ++ map snd (mdel n ms))) as (h' & E & I2 & _).
    { eapply Inv_perm; [|exact I1]. permby P. }
    rewrite E. eexists. split; [reflexivity|]. exact I2.
  - destruct (mfind bcmp n ms) as [y|] eqn:F; [|eexists; split; [reflexivity|exact I1]].
    destruct (Inv_live h _ y I1) as (c & L).
    { apply in_or_app. left. apply in_or_app. right. apply in_or_app. right.
      apply (Permutation_in y (Permutation_sym (mdel_perm n y ms F))). now left. }
    destruct (incref_ok h _ y c I1 L) as (h' & E & I2 & _). rewrite E. eexists. split; [reflexivity|].
    unfold WI. cbn [whp pyv mths]. rewrite live_app. cbn [live flat_map]. eapply Inv_perm; [|exact I2]. perm.
Qed.
(** C91. Any sequence of attaching, reading and deleting attributes and of using Python
    variables is safe, and the counts stay right: an attribute never refers to an object
    that is gone. *)
Theorem C91_attributes : forall ops m, Forall wsafe ops -> 0 < m ->
  exists s, wrun ops (winit m) = WOk s /\
    forall x, match look (whp s) x with
              | Some c => rc c = count_occ Nat.eq_dec
                    (repeat none m ++ live (pyv s) ++ map snd (mths s) ++ slots (whp s)) x
              | None => ~ In x (live (pyv s)) /\ ~ In x (map snd (mths s))
              end.
Proof.
  intros ops m F M.
  assert (W0 : WI m (winit m)).
  { split; [repeat constructor; cbn; tauto|]. intros x. cbn [winit whp pyv mths look live flat_map map app slots kids ob snd].
    rewrite !app_nil_r.
    assert (C : forall k, cnt (repeat none k) x = if none =? x then k else 0).
    { induction k as [|k IH]; [now destruct (none =? x)|]. cbn [repeat]. rewrite cnt_cons, IH. destruct (none =? x); lia. }
    rewrite C. destruct (none =? x); cbn [rc]; lia. }
  assert (Q : exists s, wrun ops (winit m) = WOk s /\ WI m s).
  { clear M. revert W0. generalize (winit m). induction F as [|o ops Fo F IH]; intros s W; cbn [wrun]; [eauto|].
    destruct (wstep_ok m s o Fo W) as (s' & -> & W'). now apply IH. }
  destruct Q as (s & E & [N I1]). exists s. split; [exact E|]. intros x. specialize (I1 x).
  rewrite <- !app_assoc in I1. destruct (look (whp s) x) as [c|]; [apply I1|].
  rewrite !cnt_app in I1. split; intros H; apply cnt_in in H; lia.
Qed.
Print Assumptions C91_attributes.
Example C91_attributes_ex : Forall wsafe [WNew; WAttach (bs "a"); WGet (bs "a"); WDelAttr (bs "a"); WDel 1] /\
  exists s, wrun [WNew; WAttach (bs "a"); WGet (bs "a"); WDelAttr (bs "a"); WDel 1] (winit 1) = WOk s /\ length (whp s) = 2.
Proof. split; [repeat constructor|]. eexists. split; [vm_compute; reflexivity|]. reflexivity. Qed.
(** Assigning an attribute from Python: setAttro keeps a reference it was only lent, so that
    the object is freed with the last Python variable and the attribute is left dangling. *)
Theorem C91_setattr_refuted : exists ops, wrun ops (winit 1) = WUb /\
  ops = [WNew; WSet (bs "a") 0; WDel 0; WGet (bs "a")].
Proof. eexists. split; [|reflexivity]. vm_compute. reflexivity. Qed.
(** insert and erase return None without making a reference to it: every call takes one away,
    and with the last one None itself is freed. *)
Theorem C91_none_lost : forall k n, k < n -> wrun (repeat WInsert k) (winit n) = WOk (winit (n - k)).
Proof.
  induction k as [|k IH]; intros n L; cbn [repeat wrun]; [now rewrite Nat.sub_0_r|].
  destruct n as [|[|n]]; [lia|lia|]. cbn [wstep winit whp pyv mths]. unfold decref. cbn [decs look none Nat.eqb rc].
  cbn. change (wrun (repeat WInsert k) (winit (S n)) = WOk (winit (S n - k))). apply IH. lia.
Qed.
Print Assumptions C91_none_lost.
Example C91_none_ex : wrun (repeat WInsert 3) (winit 5) = WOk (winit 2).
Proof. vm_compute. reflexivity. Qed.
(** Calling insert once more than None has references is a use of freed memory. *)
Theorem C91_none_refuted : exists ops, Forall (fun o => o = WInsert) ops /\ wrun ops (winit 3) = WUb.
Proof. exists (repeat WInsert 4). split; [repeat constructor|]. vm_compute. reflexivity. Qed.

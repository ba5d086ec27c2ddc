(** * C105, C106: where things registered with Python end up *)
From Verif Require Import Base SMap Desc_Model Desc_Props PyScope_Model.

(** ** specification *)
(** a name with the scopes [cs] and the last component [l] *)
Definition dotted (cs : list (list ascii)) (l : list ascii) : list ascii := flat_map (fun c => c ++ [dot]) cs ++ l.
Definition nodot (c : list ascii) : Prop := ~ In dot c.
Ltac nd := let H := fresh in intro H; cbn in H; intuition discriminate.
(** the object an attribute chain leads to, starting at object [o] *)
Fixpoint object_at (a : attrs) (o : nat) (cs : list (list ascii)) : option nat :=
  match cs with
  | [] => Some o
  | c :: cs' => match getattr a o c with Some (PCls o') => object_at a o' cs' | _ => None end
  end.
(** what Python finds under [c1.c2. … .l] from the module *)
Definition lookup (a : attrs) (cs : list (list ascii)) (l : list ascii) : option pyval :=
  match object_at a 0 cs with Some o => getattr a o l | None => None end.
(** how many of the scopes [names] are not scopes of [cs] *)
Fixpoint left_scopes (cs names : list (list ascii)) : nat :=
  match cs, names with
  | c :: cs', n :: ns' => if beq c n then left_scopes cs' ns' else length names
  | _, _ => length names
  end.
Definition names (s : pst) : list (list ascii) := map s_name (stack s).

(** the scopes are nested in each other, the first in object [p] and the last being [c] *)
Fixpoint chain (a : attrs) (p : nat) (st : list scope) (c : nat) : Prop :=
  match st with
  | [] => c = p
  | x :: st' => s_prev x = p /\ (p < s_obj x)%nat /\ getattr a p (s_name x) = Some (PCls (s_obj x)) /\ chain a (s_obj x) st' c
  end.
(** the state between registrations *)
Definition nested (s : pst) : Prop :=
  chain (objs s) 0 (stack s) (cur s) /\ (cur s < next s)%nat /\
  (forall o n v, getattr (objs s) o n = Some v -> (o < next s)%nat) /\
  (forall o n o', getattr (objs s) o n = Some (PCls o') -> (o < o' < next s)%nat) /\
  (forall o1 n1 o2 n2 c, getattr (objs s) o1 n1 = Some (PCls c) -> getattr (objs s) o2 n2 = Some (PCls c) -> o1 = o2 /\ n1 = n2).

(** ** the loop *)
Fixpoint steps (cs : list (list ascii)) (level : nat) (s : pst) : pst :=
  match cs with [] => erase_from level s | c :: cs' => steps cs' (S level) (step c level s) end.

Lemma loop_comp : forall c acc d k s, nodot c -> check_loop acc (c ++ dot :: d) k s = check_loop [] d (S k) (step (rev acc ++ c) k s).
Proof.
  induction c as [|x c IH]; intros acc d k s H; cbn [app check_loop].
  - destruct (ascii_dec dot dot); [|congruence]. now rewrite app_nil_r.
  - destruct (ascii_dec x dot) as [->|_]; [exfalso; apply H; now left|].
    rewrite IH by (intro; apply H; now right). cbn [rev]. now rewrite <- app_assoc.
Qed.
Lemma loop_last : forall l acc k s, nodot l -> check_loop acc l k s = erase_from k s.
Proof.
  induction l as [|x l IH]; intros acc k s H; [reflexivity|]. cbn [check_loop].
  destruct (ascii_dec x dot) as [->|_]; [exfalso; apply H; now left|]. apply IH. intro; apply H; now right.
Qed.
Lemma loop_steps : forall cs l k s, Forall nodot cs -> nodot l -> check_loop [] (dotted cs l) k s = steps cs k s.
Proof.
  induction cs as [|c cs IH]; intros l k s H Hl; [apply loop_last; exact Hl|].
  inversion H; subst. unfold dotted. cbn [flat_map steps]. rewrite <- !app_assoc. cbn [app].
  rewrite loop_comp by assumption. cbn [rev app]. apply (IH l (S k)); assumption.
Qed.
Lemma check_steps : forall cs l s, Forall nodot cs -> nodot l -> checkScope (dotted cs l) s = steps cs 0 s.
Proof. intros. now apply loop_steps. Qed.
Lemma tail_dotted : forall cs l, nodot l -> tail (dotted cs l) = l.
Proof.
  intros cs l H. destruct cs as [|c cs] using rev_ind; [now apply C34_nodot_tail|].
  unfold dotted. rewrite flat_map_app. cbn [flat_map]. rewrite app_nil_r, <- !app_assoc.
  rewrite (app_assoc (flat_map _ cs)). now apply C34_unique.
Qed.

(** one turn keeps what is below the level, and has the scope at the level *)
Lemma step_below : forall h k s, (k <= length (stack s))%nat ->
  firstn k (stack (step h k s)) = firstn k (stack s) /\
  exists x, nth_error (stack (step h k s)) k = Some x /\ s_name x = h.
Proof.
  intros h k s Hk. unfold step. cbv zeta. destruct (nth_error (stack s) k) as [x|] eqn:E.
  - assert (L : (k < length (stack s))%nat) by (apply nth_error_Some; congruence).
    destruct (beq h (s_name x)) eqn:B.
    + destruct (Nat.eqb_spec k (length (stack s))); [lia|]. split; [reflexivity|]. exists x. apply beq_eq in B. auto.
    + cbn [stack erase_from]. rewrite firstn_length_le by lia. rewrite Nat.eqb_refl. cbn [stack push erase_from].
      assert (F : length (firstn k (stack s)) = k) by (apply firstn_length_le; lia).
      split.
      * rewrite firstn_app, F, Nat.sub_diag. cbn [firstn]. rewrite app_nil_r, firstn_firstn. f_equal; lia.
      * eexists. rewrite nth_error_app2 by lia. rewrite F, Nat.sub_diag. cbn. split; reflexivity.
  - apply nth_error_None in E. assert (k = length (stack s)) by lia. subst k. rewrite Nat.eqb_refl. cbn [stack push].
    split.
    + rewrite firstn_app, Nat.sub_diag. cbn [firstn]. now rewrite app_nil_r.
    + eexists. rewrite nth_error_app2, Nat.sub_diag by lia. cbn. split; reflexivity.
Qed.
Lemma firstn_S_nth : forall (A : Type) k (l : list A) x, nth_error l k = Some x -> firstn (S k) l = firstn k l ++ [x].
Proof.
  induction k; intros [|y l] x H; cbn in H; try discriminate.
  - injection H as ->. reflexivity.
  - cbn [firstn]. cbn [app]. f_equal. change (firstn (S k) l = firstn k l ++ [x]). now apply IHk.
Qed.
Lemma steps_names : forall cs k s, (k <= length (stack s))%nat ->
  map s_name (stack (steps cs k s)) = map s_name (firstn k (stack s)) ++ cs.
Proof.
  induction cs as [|c cs IH]; intros k s Hk; cbn [steps].
  - cbn [stack erase_from]. now rewrite app_nil_r.
  - destruct (step_below c k s Hk) as (F & x & N & X). rewrite IH.
    + rewrite (firstn_S_nth _ _ _ _ N), F, map_app. cbn [map]. rewrite X, <- app_assoc. reflexivity.
    + apply nth_error_Some. congruence.
Qed.

(** C105: afterwards the scopes are exactly the components of the name but the last, whatever was there *)
Theorem C105_stack : forall cs l s, Forall nodot cs -> nodot l -> names (checkScope (dotted cs l) s) = cs.
Proof. intros. unfold names. rewrite check_steps by assumption. rewrite steps_names by lia. reflexivity. Qed.
Print Assumptions C105_stack.
Example C105_stack_ex : Forall nodot [bs "a"; bs "b"] /\ nodot (bs "f") /\
  names (checkScope (bs "a.b.f") (checkScope (bs "a.c.d.x") start)) = [bs "a"; bs "b"].
Proof. split; [constructor; [nd|constructor; [nd|constructor]]|split; [nd|vm_compute; reflexivity]]. Qed.

Lemma steps_keep : forall cs k s n, (k <= length (stack s))%nat -> (n <= length cs)%nat ->
  map s_name (firstn n (skipn k (stack s))) = firstn n cs -> (k + n <= length (stack s))%nat ->
  firstn (k + n) (stack (steps cs k s)) = firstn (k + n) (stack s).
Proof.
  induction cs as [|c cs IH]; intros k s n Hk Hn E L; cbn [steps].
  - cbn in Hn. assert (n = 0)%nat by lia. subst. rewrite Nat.add_0_r. cbn [stack erase_from].
    rewrite firstn_firstn. f_equal; lia.
  - destruct n as [|n].
    + rewrite Nat.add_0_r. destruct (step_below c k s Hk) as (F & x & N & _).
      assert (K : (k < length (stack (step c k s)))%nat) by (apply nth_error_Some; congruence).
      assert (G : forall cs k s, (k <= length (stack s))%nat -> firstn k (stack (steps cs k s)) = firstn k (stack s)).
      { clear. induction cs as [|c cs IH]; intros k s Hk; cbn [steps].
        - cbn [stack erase_from]. rewrite firstn_firstn. f_equal; lia.
        - destruct (step_below c k s Hk) as (F & x & N & _).
          assert (K : (k < length (stack (step c k s)))%nat) by (apply nth_error_Some; congruence).
          rewrite <- F. specialize (IH (S k) (step c k s) K).
          apply (f_equal (firstn k)) in IH. rewrite !firstn_firstn in IH. replace (Nat.min k (S k)) with k in IH by lia. exact IH. }
      rewrite <- F. specialize (G cs (S k) (step c k s) K).
      apply (f_equal (firstn k)) in G. rewrite !firstn_firstn in G. replace (Nat.min k (S k)) with k in G by lia. exact G.
    + assert (S1 : step c k s = s).
      { unfold step. cbv zeta. destruct (nth_error (stack s) k) as [x|] eqn:N; [|apply nth_error_None in N; lia].
        assert (X : s_name x = c).
        { apply (f_equal (hd [])) in E. cbn in E.
          rewrite <- E. assert (hd_error (skipn k (stack s)) = Some x).
          { clear - N. revert N. generalize (stack s). induction k; intros [|y l] N; cbn in *; try discriminate; auto. }
          destruct (skipn k (stack s)); [discriminate|]. cbn in *. congruence. }
        rewrite X, beq_refl. destruct (Nat.eqb_spec k (length (stack s))); [lia|reflexivity]. }
      rewrite S1. replace (k + S n)%nat with (S k + n)%nat by lia. apply IH; try lia.
      * cbn in Hn; lia.
      * assert (Sk : skipn (S k) (stack s) = tl (skipn k (stack s))).
        { clear. generalize (stack s). induction k; intros [|y l]; cbn in *; auto. }
        rewrite Sk. destruct (skipn k (stack s)) as [|y r]; [discriminate|]. cbn in E |- *. now injection E.
Qed.
(** C105: the scopes a name has in common with those already open are not made again *)
Theorem C105_common : forall cs l s n, Forall nodot cs -> nodot l -> (n <= length cs)%nat ->
  firstn n (names s) = firstn n cs -> (n <= length (names s))%nat ->
  firstn n (stack (checkScope (dotted cs l) s)) = firstn n (stack s).
Proof.
  intros cs l s n Hc Hl Hn E L. rewrite check_steps by assumption. unfold names in *. rewrite map_length in L.
  apply (steps_keep cs 0 s n); try lia. cbn [skipn]. rewrite <- firstn_map. exact E.
Qed.
Print Assumptions C105_common.
Example C105_common_ex : (1 <= length [bs "a"; bs "b"])%nat /\
  let s := checkScope (bs "a.c.x") start in
  firstn 1 (names s) = firstn 1 [bs "a"; bs "b"] /\ (1 <= length (names s))%nat.
Proof. vm_compute. auto. Qed.

(** ** scopes left one at a time *)
Lemma get_set : forall a o n v o' n', getattr (setattr a o n v) o' n' = if (o' =? o)%nat && beq n' n then Some v else getattr a o' n'.
Proof. reflexivity. Qed.
Lemma get_set_same : forall a o n v, getattr (setattr a o n v) o n = Some v.
Proof. intros. rewrite get_set, Nat.eqb_refl, beq_refl. reflexivity. Qed.
Lemma chain_le : forall a st p c, chain a p st c -> (p <= c)%nat.
Proof. induction st as [|x st IH]; intros p c H; cbn in H; [lia|]. destruct H as (_ & L & _ & H). apply IH in H. lia. Qed.
Lemma chain_set : forall a n v st p c, chain a p st c -> chain (setattr a c n v) p st c.
Proof.
  intros a n v. induction st as [|x st IH]; intros p c H; cbn in H |- *; [exact H|].
  destruct H as (P & L & G & H). pose proof (chain_le _ _ _ _ H). split; [exact P|]. split; [exact L|].
  split; [|now apply IH]. destruct (Nat.eqb_spec p c); [lia|]. cbn. exact G.
Qed.
Lemma chain_snoc : forall a x st p c, chain a p (st ++ [x]) c <->
  (chain a p st (s_prev x) /\ (s_prev x < s_obj x)%nat /\ getattr a (s_prev x) (s_name x) = Some (PCls (s_obj x)) /\ c = s_obj x).
Proof.
  intros a x. induction st as [|y st IH]; intros p c; cbn [app chain].
  - split.
    + intros (<- & L & G & H). repeat split; auto.
    + intros (E & L & G & H). rewrite <- E. repeat split; auto.
  - rewrite IH. tauto.
Qed.
Lemma chain_object : forall a st p c, chain a p st c -> object_at a p (map s_name st) = Some c.
Proof.
  induction st as [|x st IH]; intros p c H; cbn in H |- *; [now subst|].
  destruct H as (_ & _ & G & H). rewrite G. now apply IH.
Qed.

Lemma nested_push : forall h s, nested s -> nested (push h s).
Proof.
  intros h s (C & L & D & T & U). unfold nested, push; cbn [stack cur objs next].
  split; [|split; [lia|split; [|split]]].
  - apply chain_snoc. cbn [s_prev s_obj s_name]. repeat split; auto; [now apply chain_set|apply get_set_same].
  - intros o n v. rewrite get_set. destruct (Nat.eqb_spec o (cur s)); cbn [andb].
    + intros _. lia.
    + intros G. apply D in G. lia.
  - intros o n o'. rewrite get_set. destruct (Nat.eqb_spec o (cur s)); [destruct (beq n h)|]; cbn [andb].
    + intros G. injection G as <-. lia.
    + intros G. apply T in G. lia.
    + intros G. apply T in G. lia.
  - intros o1 n1 o2 n2 c. rewrite !get_set.
    destruct (Nat.eqb_spec o1 (cur s)); [destruct (beq n1 h) eqn:B1|]; cbn [andb];
    (destruct (Nat.eqb_spec o2 (cur s)); [destruct (beq n2 h) eqn:B2|]; cbn [andb]);
      try apply beq_eq in B1; try apply beq_eq in B2; intros G1 G2; subst; auto;
      try (injection G1 as <-; apply T in G2; lia);
      try (injection G2 as <-; apply T in G1; lia);
      try (eapply U; eassumption).
Qed.
Lemma nested_fn : forall n f s, nested s -> nested (mkpst (stack s) (cur s) (setattr (objs s) (cur s) n (PFn f)) (next s)).
Proof.
  intros n f s (C & L & D & T & U). unfold nested; cbn [stack cur objs next].
  split; [now apply chain_set|split; [lia|split; [|split]]].
  - intros o m v. rewrite get_set. destruct (Nat.eqb_spec o (cur s)); cbn [andb]; [lia|]. apply D.
  - intros o m o'. rewrite get_set. destruct (_ && _); [discriminate|]. apply T.
  - intros o1 n1 o2 n2 c. rewrite !get_set. destruct (_ && _); [discriminate|]. destruct (_ && _); [discriminate|]. apply U.
Qed.
Lemma nested_erase : forall k s, nested s -> (length (stack s) <= S k)%nat -> nested (erase_from k s).
Proof.
  intros k s (C & L & D & T & U) K. unfold nested, erase_from; cbn [stack cur objs next].
  destruct (Nat.le_gt_cases (length (stack s)) k) as [H|H].
  - rewrite firstn_all2, skipn_all2 by lia. cbn [fold_left]. auto.
  - destruct (stack s) as [|x st] using rev_ind; [cbn in H; lia|]. clear IHst. rewrite app_length in K, H. cbn in K, H.
    assert (k = length st) by lia. subst k.
    rewrite firstn_app, skipn_app, firstn_all, skipn_all, Nat.sub_diag. cbn [firstn skipn app fold_left]. rewrite app_nil_r.
    apply chain_snoc in C. destruct C as (C & P & _ & E). split; [exact C|]. split; [lia|]. auto.
Qed.
Lemma skipn_nth : forall (A : Type) k (l : list A) x, nth_error l k = Some x -> skipn k l = x :: skipn (S k) l.
Proof.
  induction k; intros [|y l] x H; cbn in H; try discriminate.
  - injection H as ->. reflexivity.
  - cbn [skipn]. now apply IHk.
Qed.

(** scopes in common *)
Fixpoint common (cs ns : list (list ascii)) : nat :=
  match cs, ns with
  | c :: cs', n :: ns' => if beq c n then S (common cs' ns') else 0
  | _, _ => 0
  end.
(** [p] is an initial part of [q] *)
Definition is_prefix (p q : list (list ascii)) : Prop := exists r, q = p ++ r.

Lemma object_snoc : forall a p o c, object_at a o (p ++ [c]) =
  match object_at a o p with Some m => match getattr a m c with Some (PCls o') => Some o' | _ => None end | None => None end.
Proof.
  induction p as [|x p IH]; intros o c; cbn [app object_at]; [reflexivity|].
  destruct (getattr a o x) as [[o'|f]|]; auto.
Qed.
Lemma object_app : forall a p q o, object_at a o (p ++ q) = match object_at a o p with Some m => object_at a m q | None => None end.
Proof.
  induction p as [|x p IH]; intros q o; cbn [app object_at]; [reflexivity|].
  destruct (getattr a o x) as [[o'|f]|]; auto.
Qed.
Lemma object_unique : forall s, nested s -> forall p q o, object_at (objs s) 0 p = Some o -> object_at (objs s) 0 q = Some o -> p = q.
Proof.
  intros s (_ & _ & _ & T & U). induction p as [|c p IH] using rev_ind; intros q o P Q.
  - cbn in P. injection P as <-. destruct q as [|d q] using rev_ind; [reflexivity|].
    rewrite object_snoc in Q. destruct (object_at _ 0 q) as [m|]; [|discriminate].
    destruct (getattr _ m d) as [[o'|f]|] eqn:G; try discriminate. injection Q as ->. apply T in G. lia.
  - rewrite object_snoc in P. destruct (object_at _ 0 p) as [m|] eqn:Em; [|discriminate].
    destruct (getattr _ m c) as [[o'|f]|] eqn:G; try discriminate. injection P as ->.
    destruct q as [|d q] using rev_ind; [cbn in Q; injection Q as <-; apply T in G; lia|]. clear IHq.
    rewrite object_snoc in Q. destruct (object_at _ 0 q) as [m'|] eqn:Em'; [|discriminate].
    destruct (getattr _ m' d) as [[o''|f]|] eqn:G'; try discriminate. injection Q as ->.
    destruct (U _ _ _ _ _ G G') as [-> ->]. f_equal. eapply IH; eauto.
Qed.
(** an attribute set at the end of path [p] is seen only by paths through it *)
Lemma frame_obj : forall s, nested s -> forall p o n v, object_at (objs s) 0 p = Some o ->
  forall q r m, object_at (objs s) 0 r = Some m -> ~ is_prefix (p ++ [n]) (r ++ q) ->
  object_at (setattr (objs s) o n v) m q = object_at (objs s) m q.
Proof.
  intros s N p o n v P. induction q as [|c q IH]; intros r m R H; [reflexivity|]. cbn [object_at].
  rewrite get_set. destruct (Nat.eqb_spec m o) as [->|]; [destruct (beq c n) eqn:B|]; cbn [andb].
  - apply beq_eq in B; subst c. exfalso. apply H. rewrite (object_unique s N _ _ _ P R). exists q. now rewrite <- app_assoc.
  - destruct (getattr (objs s) o c) as [[o'|f]|] eqn:G; try reflexivity. apply (IH (r ++ [c])).
    + rewrite object_snoc, R, G. reflexivity.
    + now rewrite <- app_assoc.
  - destruct (getattr (objs s) m c) as [[o'|f]|] eqn:G; try reflexivity. apply (IH (r ++ [c])).
    + rewrite object_snoc, R, G. reflexivity.
    + now rewrite <- app_assoc.
Qed.
Lemma frame : forall s, nested s -> forall p o n v, object_at (objs s) 0 p = Some o ->
  forall q l, ~ is_prefix (p ++ [n]) (q ++ [l]) -> lookup (setattr (objs s) o n v) q l = lookup (objs s) q l.
Proof.
  intros s N p o n v P q l H. unfold lookup.
  rewrite (frame_obj s N p o n v P q [] 0); [|reflexivity|].
  - destruct (object_at (objs s) 0 q) as [m|] eqn:Q; [|reflexivity]. rewrite get_set.
    destruct (Nat.eqb_spec m o) as [->|]; [destruct (beq l n) eqn:B|]; cbn [andb]; auto.
    apply beq_eq in B; subst l. exfalso. apply H. rewrite (object_unique s N _ _ _ P Q). exists []. now rewrite app_nil_r.
  - cbn [app]. intros (r & E). apply H. exists (r ++ [l]). rewrite E. now rewrite <- app_assoc.
Qed.

Lemma steps_nested : forall cs k s, nested s -> (k <= length (stack s))%nat -> (left_scopes cs (skipn k (names s)) <= 1)%nat ->
  nested (steps cs k s) /\
  forall l q m, ~ is_prefix (firstn k (names s) ++ firstn (S (common cs (skipn k (names s)))) (cs ++ [l])) (q ++ [m]) ->
    lookup (objs (steps cs k s)) q m = lookup (objs s) q m.
Proof.
  induction cs as [|c cs IH]; intros k s N K H; cbn [steps].
  - split; [|reflexivity]. apply nested_erase; [exact N|]. cbn in H. unfold names in H. rewrite skipn_length, map_length in H. lia.
  - assert (PUSH : forall s, nested s -> length (stack s) = k ->
      nested (steps cs (S k) (push c s)) /\
      forall q m, ~ is_prefix (names s ++ [c]) (q ++ [m]) -> lookup (objs (steps cs (S k) (push c s))) q m = lookup (objs s) q m).
    { clear s N K H. intros s N K.
      assert (LL : length (stack (push c s)) = S k) by (cbn [stack push]; rewrite app_length; cbn; lia).
      assert (SK : skipn (S k) (names (push c s)) = []) by (apply skipn_all2; unfold names; rewrite map_length; lia).
      destruct (IH (S k) (push c s)) as [IN IF].
      - now apply nested_push.
      - lia.
      - rewrite SK. destruct cs; cbn; lia.
      - split; [exact IN|]. intros q m Hq. rewrite (IF [] q m).
        + cbn [objs push]. apply (frame s N (names s)); [|exact Hq]. apply chain_object. apply N.
        + intros (r & E). apply Hq. rewrite firstn_all2 in E by (unfold names; rewrite map_length; lia).
          unfold names in E. cbn [stack push] in E. rewrite map_app in E. cbn [map s_name] in E.
          rewrite <- app_assoc in E. eexists. exact E. }
    unfold step. cbv zeta. destruct (nth_error (stack s) k) as [x|] eqn:E.
    + pose proof E as EN. apply (map_nth_error s_name) in EN. fold (names s) in EN.
      assert (KL : (k < length (stack s))%nat) by (apply nth_error_Some; congruence).
      rewrite (skipn_nth _ _ _ _ EN) in H |- *. cbn [left_scopes common] in H |- *.
      destruct (beq c (s_name x)) eqn:B.
      * destruct (Nat.eqb_spec k (length (stack s))); [lia|]. destruct (IH (S k) s N) as [IN IF]; [lia|exact H|].
        split; [exact IN|]. intros l q m Hq. apply (IF l). intro X. apply Hq.
        rewrite (firstn_S_nth _ _ _ _ EN) in X. apply beq_eq in B. subst c. rewrite <- app_assoc in X. exact X.
      * cbn [length] in H. assert (SL : (length (stack s) = S k)%nat).
        { assert (length (skipn (S k) (names s)) = 0)%nat by lia. rewrite skipn_length in H0. unfold names in H0. rewrite map_length in H0. lia. }
        cbn [stack erase_from]. rewrite firstn_length_le by lia. rewrite Nat.eqb_refl.
        assert (NE : nested (erase_from k s)) by (apply nested_erase; [exact N|lia]).
        destruct (PUSH _ NE) as [PN PF]; [cbn [stack erase_from]; apply firstn_length_le; lia|].
        split; [exact PN|]. intros l q m Hq. rewrite PF; [reflexivity|].
        unfold names at 1. cbn [stack erase_from]. rewrite <- firstn_map. exact Hq.
    + apply nth_error_None in E. assert (k = length (stack s)) by lia. subst k. rewrite Nat.eqb_refl.
      destruct (PUSH s N eq_refl) as [PN PF]. split; [exact PN|]. intros l q m Hq. apply PF.
      rewrite firstn_all2 in Hq by (unfold names; rewrite map_length; lia).
      rewrite skipn_all2 in Hq by (unfold names; rewrite map_length; lia). exact Hq.
Qed.

Lemma nested_start : nested start.
Proof. unfold nested, start; cbn. repeat split; intros; try discriminate; lia. Qed.

Lemma nested_cur : forall s x st, nested s -> rev (stack s) = x :: st -> s_obj x = cur s.
Proof.
  intros s x st (C & _) R. apply (f_equal (@rev _)) in R. rewrite rev_involutive in R. cbn in R. rewrite R in C.
  apply chain_snoc in C. now destruct C as (_ & _ & _ & ->).
Qed.

(** C105: if at most one open scope is left, what is registered is found under its name, functions do not
    throw and are where objects are, the state is nested again, and what is not below the first new
    component of the name is still found *)
Theorem C105_found : forall cs l f s, Forall nodot cs -> nodot l -> nested s -> (left_scopes cs (names s) <= 1)%nat ->
  exists s', addFunctional (dotted cs l) f s = Some s' /\ addObject (dotted cs l) f s = s' /\
    nested s' /\ names s' = cs /\ lookup (objs s') cs l = Some (PFn f) /\
    forall q m, ~ is_prefix (firstn (S (common cs (names s))) (cs ++ [l])) (q ++ [m]) ->
      lookup (objs s') q m = lookup (objs s) q m.
Proof.
  intros cs l f s Hc Hl N H.
  destruct (steps_nested cs 0 s N) as [NS F]; [lia|exact H|].
  pose proof (C105_stack cs l s Hc Hl) as CS. unfold addFunctional, addObject.
  rewrite check_steps in * by assumption. rewrite tail_dotted by assumption.
  set (s1 := steps cs 0 s) in *. pose proof (nested_fn l f s1 NS) as N2.
  set (s2 := mkpst (stack s1) (cur s1) (setattr (objs s1) (cur s1) l (PFn f)) (next s1)) in *.
  assert (OB : object_at (objs s1) 0 cs = Some (cur s1)) by (rewrite <- CS; apply chain_object; apply NS).
  assert (NM : names s2 = cs) by (rewrite <- CS; reflexivity).
  exists s2. split; [|split; [|split; [exact N2|split; [exact NM|split]]]].
  - cbv zeta. fold s2. destruct (rev (stack s1)) as [|x st] eqn:R; [reflexivity|].
    rewrite (nested_cur _ _ _ NS R). cbn [objs s2]. rewrite get_set_same. reflexivity.
  - cbv zeta. destruct (rev (stack s1)) as [|x st] eqn:R; [reflexivity|]. rewrite (nested_cur _ _ _ NS R). reflexivity.
  - unfold lookup. assert (O2 : object_at (objs s2) 0 cs = Some (cur s2)) by (rewrite <- NM; apply chain_object; apply N2).
    rewrite O2. cbn [objs cur s2]. apply get_set_same.
  - intros q m Hq. cbn [objs s2]. rewrite (frame s1 NS cs (cur s1) l (PFn f) OB).
    + apply (F l). cbn [skipn firstn app]. exact Hq.
    + intros (r & E). apply Hq. exists (skipn (S (common cs (names s))) (cs ++ [l]) ++ r).
      rewrite app_assoc, firstn_skipn. exact E.
Qed.
Print Assumptions C105_found.
Example C105_found_ex : Forall nodot [bs "a"] /\ nodot (bs "f") /\ nested start /\ (left_scopes [bs "a"] (names start) <= 1)%nat.
Proof. split; [constructor; [nd|constructor]|]. split; [nd|]. split; [apply nested_start|cbn; lia]. Qed.

(** ** a whole registration *)
(** what is registered: the scopes, the last component and the thing *)
Definition reg := (list (list ascii) * list ascii * nat)%type.
Fixpoint add_all (rs : list reg) (s : pst) : option pst :=
  match rs with
  | [] => Some s
  | (cs, l, f) :: rs' => match addFunctional (dotted cs l) f s with Some s' => add_all rs' s' | None => None end
  end.
(** from the scopes [ns]: each name leaves at most one scope, and its first new component is not on the way to
    a name of [done] *)
Fixpoint orderly (ns : list (list ascii)) (done rs : list reg) : Prop :=
  match rs with
  | [] => True
  | (cs, l, f) :: rs' =>
      Forall nodot cs /\ nodot l /\ (left_scopes cs ns <= 1)%nat /\
      Forall (fun r => ~ is_prefix (firstn (S (common cs ns)) (cs ++ [l])) (fst (fst r) ++ [snd (fst r)])) done /\
      orderly cs ((cs, l, f) :: done) rs'
  end.
Lemma add_all_found : forall rs done s, nested s -> orderly (names s) done rs ->
  Forall (fun r => lookup (objs s) (fst (fst r)) (snd (fst r)) = Some (PFn (snd r))) done ->
  exists s', add_all rs s = Some s' /\
    Forall (fun r => lookup (objs s') (fst (fst r)) (snd (fst r)) = Some (PFn (snd r))) (done ++ rs).
Proof.
  induction rs as [|[[cs l] f] rs IH]; intros done s N O D.
  - exists s. rewrite app_nil_r. auto.
  - cbn [orderly] in O. destruct O as (Hc & Hl & L & P & O).
    destruct (C105_found cs l f s Hc Hl N L) as (s' & A & _ & N' & NM & Lk & Fr).
    destruct (IH ((cs, l, f) :: done) s' N') as (s2 & A2 & F2).
    + now rewrite NM.
    + constructor; [exact Lk|]. clear - P D Fr. rewrite Forall_forall in *. intros r I. rewrite Fr; auto.
    + exists s2. cbn [add_all]. rewrite A. split; [exact A2|].
      inversion F2 as [|? ? X Y]; subst. apply Forall_app in Y. destruct Y as [Y Z].
      apply Forall_app. split; [exact Y|]. constructor; assumption.
Qed.
(** C105: everything registered in such an order is found in the end *)
Theorem C105_all : forall rs, orderly [] [] rs -> exists s, add_all rs start = Some s /\
  Forall (fun r => lookup (objs s) (fst (fst r)) (snd (fst r)) = Some (PFn (snd r))) rs.
Proof. intros rs O. apply (add_all_found rs [] start nested_start O). constructor. Qed.
Print Assumptions C105_all.
Example C105_all_ex : orderly [] [] [([bs "a"], bs "f", 1%nat); ([bs "a"; bs "b"], bs "g", 2%nat); ([bs "a"], bs "h", 3%nat); ([], bs "k", 4%nat)].
Proof.
  cbn [orderly]. repeat split; try nd; repeat (constructor; try nd); cbn; try lia;
    try (intros (r & E); discriminate E).
Qed.

(** C105: leaving two scopes at once puts a function into the wrong one: after [a.b.f], [g] is found as [a.g],
    not as [g] *)
Theorem C105_two_refuted : exists rs s, add_all rs start = Some s /\ In ([], bs "g", 2%nat) rs /\
  lookup (objs s) [] (bs "g") = None /\ lookup (objs s) [bs "a"] (bs "g") = Some (PFn 2).
Proof.
  exists [([bs "a"; bs "b"], bs "f", 1%nat); ([], bs "g", 2%nat)]. eexists. split; [vm_compute; reflexivity|].
  split; [right; left; reflexivity|]. vm_compute. auto.
Qed.
Print Assumptions C105_two_refuted.
(** C105: and a function in another scope throws: after [a.b.c.f], [a.g] *)
Theorem C105_throw_refuted : exists s, add_all [([bs "a"; bs "b"; bs "c"], bs "f", 1%nat)] start = Some s /\
  nested s /\ addFunctional (dotted [bs "a"] (bs "g")) 2 s = None.
Proof.
  destruct (C105_found [bs "a"; bs "b"; bs "c"] (bs "f") 1 start) as (s' & A & _ & N & _).
  - repeat (constructor; try nd).
  - nd.
  - apply nested_start.
  - cbn; lia.
  - exists s'. cbn [add_all]. rewrite A. split; [reflexivity|]. split; [exact N|].
    vm_compute in A. injection A as <-. vm_compute. reflexivity.
Qed.
Print Assumptions C105_throw_refuted.
(** C105: a scope entered again is a new class: after [a.f], [b.g] and [a.h], [a.f] is gone *)
Theorem C105_reenter_refuted : exists rs s, add_all rs start = Some s /\ In ([bs "a"], bs "f", 1%nat) rs /\
  lookup (objs s) [bs "a"] (bs "f") = None /\ lookup (objs s) [bs "a"] (bs "h") = Some (PFn 3).
Proof.
  exists [([bs "a"], bs "f", 1%nat); ([bs "b"], bs "g", 2%nat); ([bs "a"], bs "h", 3%nat)]. eexists.
  split; [vm_compute; reflexivity|]. split; [left; reflexivity|]. vm_compute. auto.
Qed.
Print Assumptions C105_reenter_refuted.

(** ** C106: [ExtractClassNameAndSetScope] *)
(** a component of a qualified name: the angle brackets are balanced in the end, starting with [z] open ones,
    and a colon is only within some *)
Fixpoint atomic (z : Z) (s : list ascii) : bool :=
  match s with
  | [] => (z =? 0)%Z
  | c :: s' =>
      if ascii_dec c ":"%char then negb (z =? 0)%Z && atomic z s'
      else if ascii_dec c "<"%char then atomic (z + 1) s'
      else if ascii_dec c ">"%char then atomic (z - 1) s'
      else atomic z s'
  end.
Definition qualified (cs : list (list ascii)) (l : list ascii) : list ascii := flat_map (fun c => c ++ bs "::") cs ++ l.
(** [a.b.c] *)
Fixpoint join (cs : list (list ascii)) : list ascii :=
  match cs with [] => [] | [c] => c | c :: cs' => c ++ [dot] ++ join cs' end.
(** the scopes around a name, the outermost first *)
Definition around (cs : list (list ascii)) : list (list ascii) := map (fun i => join (firstn (S i) cs)) (seq 0 (length cs)).

Lemma extract_comp : forall c acc z m ns r, atomic z c = true ->
  extract_loop acc z m ns (c ++ bs "::" ++ r) =
  (let m' := match m with [] => [] | _ => m ++ [dot] end ++ rev acc ++ c in extract_loop [] 0 m' (m' :: ns) r).
Proof.
  induction c as [|x c IH]; intros acc z m ns r H.
  - cbn [atomic] in H. apply Z.eqb_eq in H. subst z. cbn. rewrite app_nil_r. reflexivity.
  - cbn [atomic] in H. cbn [app extract_loop]. destruct (ascii_dec x ":"%char) as [->|n1].
    + apply andb_true_iff in H. destruct H as [Z H]. apply negb_true_iff in Z.
      destruct c as [|y c]; [cbn in H; congruence|]. cbn [app]. rewrite Z. cbn [andb].
      change (y :: c ++ bs "::" ++ r) with ((y :: c) ++ bs "::" ++ r). rewrite IH by exact H. cbn [rev]. now rewrite <- app_assoc.
    + destruct (ascii_dec x "<"%char); [|destruct (ascii_dec x ">"%char)]; rewrite IH by exact H; cbn [rev]; now rewrite <- app_assoc.
Qed.
Lemma extract_last : forall c acc z m ns, atomic z c = true -> extract_loop acc z m ns c = (rev acc ++ c, rev ns).
Proof.
  induction c as [|x c IH]; intros acc z m ns H.
  - cbn. now rewrite app_nil_r.
  - cbn [atomic] in H. cbn [extract_loop]. destruct (ascii_dec x ":"%char) as [->|n1].
    + apply andb_true_iff in H. destruct H as [Z H]. apply negb_true_iff in Z.
      destruct c as [|y c]; [cbn in H; congruence|]. rewrite Z. cbn [andb].
      rewrite IH by exact H. cbn [rev]. now rewrite <- app_assoc.
    + destruct (ascii_dec x "<"%char); [|destruct (ascii_dec x ">"%char)]; rewrite IH by exact H; cbn [rev]; now rewrite <- app_assoc.
Qed.
Lemma join_snoc : forall cs c, join (cs ++ [c]) = match cs with [] => [] | _ => join cs ++ [dot] end ++ c.
Proof.
  induction cs as [|x cs IH]; intros c; [reflexivity|]. cbn [app join]. destruct cs as [|y cs].
  - cbn. now rewrite <- app_assoc.
  - cbn [app]. change (y :: cs ++ [c]) with ((y :: cs) ++ [c]). rewrite IH. now rewrite <- !app_assoc.
Qed.
Lemma join_nonempty : forall cs, cs <> [] -> Forall (fun c => c <> []) cs -> join cs <> [].
Proof. intros [|c [|d cs]] H F; [congruence| |]; inversion F; subst; cbn; [assumption|]. destruct c; discriminate. Qed.
Lemma around_snoc : forall cs c, around (cs ++ [c]) = around cs ++ [join (cs ++ [c])].
Proof.
  intros. unfold around. rewrite app_length. cbn [length]. rewrite Nat.add_1_r, seq_S, map_app. cbn [map Nat.add]. f_equal.
  - apply map_ext_in. intros i I. apply in_seq in I. rewrite firstn_app. replace (S i - length cs)%nat with 0%nat by lia.
    cbn [firstn]. now rewrite app_nil_r.
  - rewrite firstn_all2 by (rewrite app_length; cbn; lia). reflexivity.
Qed.
Lemma extract_run : forall cs done l, Forall (fun c => atomic 0 c = true /\ c <> []) cs -> Forall (fun c : list ascii => c <> []) done -> atomic 0 l = true ->
  extract_loop [] 0 (join done) (rev (around done)) (qualified cs l) = (l, around (done ++ cs)).
Proof.
  induction cs as [|c cs IH]; intros done l H D L.
  - unfold qualified. cbn [flat_map app]. rewrite extract_last by exact L. now rewrite rev_involutive, app_nil_r.
  - inversion H as [|? ? [A NE] F]; subst. unfold qualified. cbn [flat_map]. rewrite <- !app_assoc.
    rewrite extract_comp by exact A. cbv zeta. cbn [rev app].
    assert (J : match join done with [] => [] | _ => join done ++ [dot] end ++ c = join (done ++ [c])).
    { rewrite join_snoc. destruct done as [|d done]; [reflexivity|].
      destruct (join (d :: done)) eqn:E; [exfalso; revert E; apply join_nonempty; [discriminate|exact D]|]. reflexivity. }
    rewrite J. replace (join (done ++ [c]) :: rev (around done)) with (rev (around (done ++ [c]))) by (rewrite around_snoc, rev_app_distr; reflexivity).
    replace (done ++ c :: cs) with ((done ++ [c]) ++ cs) by now rewrite <- app_assoc.
    apply IH; auto. apply Forall_app. auto.
Qed.
Lemma strip_none : forall cs l, Forall (fun c => atomic 0 c = true /\ c <> []) cs -> atomic 0 l = true -> strip_colons (qualified cs l) = qualified cs l.
Proof.
  intros cs l H L. assert (A : forall c r, atomic 0 c = true -> c <> [] -> strip_colons (c ++ r) = c ++ r).
  { intros [|x c] r A NE; [congruence|]. cbn in A |- *. destruct (ascii_dec x ":"%char); [discriminate|reflexivity]. }
  destruct cs as [|c cs].
  - unfold qualified. cbn. destruct l as [|x l]; [reflexivity|]. pose proof (A (x :: l) [] L) as B. rewrite app_nil_r in B. apply B. discriminate.
  - inversion H as [|? ? [X Y] _]; subst. unfold qualified. cbn [flat_map]. rewrite <- !app_assoc. now apply A.
Qed.

(** C106: the class name is the last component of the qualified name, template arguments and all, and the
    scopes entered are those around it, the outermost first *)
Theorem C106_name : forall n cs l, Forall (fun c => atomic 0 c = true /\ c <> []) cs -> atomic 0 l = true ->
  extract (repeat ":"%char n ++ qualified cs l) = (l, around cs).
Proof.
  intros n cs l H L. unfold extract. induction n as [|n IH].
  - cbn [repeat app]. rewrite strip_none by assumption. apply (extract_run cs [] l); auto.
  - exact IH.
Qed.
Print Assumptions C106_name.
Example C106_name_ex : Forall (fun c => atomic 0 c = true /\ c <> []) [bs "std"; bs "A<b::c>"] /\ atomic 0 (bs "map<x::y,D<z> >") = true /\
  extract (bs "::std::A<b::c>::map<x::y,D<z> >") = (bs "map<x::y,D<z> >", [bs "std"; bs "std.A<b::c>"]).
Proof. repeat split; try (repeat constructor; discriminate); vm_compute; reflexivity. Qed.

Lemma join_inj : forall cs ds, Forall (fun c => nodot c /\ c <> []) cs -> Forall (fun c => nodot c /\ c <> []) ds -> join cs = join ds -> cs = ds.
Proof.
  assert (S : forall c d r q, nodot c -> nodot d -> c ++ dot :: r = d ++ dot :: q -> c = d /\ r = q).
  { induction c as [|x c IH]; intros [|y d] r q C D E; cbn in E.
    - now injection E.
    - injection E as <- _. exfalso. apply D. now left.
    - injection E as -> _. exfalso. apply C. now left.
    - injection E as -> E. destruct (IH d r q) as [-> ->]; auto; intro; [apply C|apply D]; now right. }
  induction cs as [|c cs IH]; intros [|d ds] C D E.
  - reflexivity.
  - exfalso. symmetry in E. revert E. apply join_nonempty; [discriminate|]. eapply Forall_impl; [|exact D]. now intros ? [_ ?].
  - exfalso. revert E. apply join_nonempty; [discriminate|]. eapply Forall_impl; [|exact C]. now intros ? [_ ?].
  - inversion C as [|? ? [C1 C2] C3]; inversion D as [|? ? [D1 D2] D3]; subst.
    destruct cs as [|c' cs], ds as [|d' ds]; cbn [join] in E.
    + now subst.
    + exfalso. apply C1. rewrite E. apply in_or_app. right. now left.
    + exfalso. apply D1. rewrite <- E. apply in_or_app. right. now left.
    + apply S in E; auto. destruct E as [-> E]. f_equal. now apply IH.
Qed.
(** C106: the class name and the innermost scope entered tell qualified names apart *)
Theorem C106_injective : forall cs l ds k, atomic 0 l = true -> atomic 0 k = true ->
  Forall (fun c => atomic 0 c = true /\ c <> [] /\ nodot c) cs -> Forall (fun c => atomic 0 c = true /\ c <> [] /\ nodot c) ds ->
  fst (extract (qualified cs l)) = fst (extract (qualified ds k)) ->
  last (snd (extract (qualified cs l))) [] = last (snd (extract (qualified ds k))) [] ->
  cs = ds /\ l = k.
Proof.
  intros cs l ds k L K C D E1 E2.
  assert (C' : Forall (fun c => atomic 0 c = true /\ c <> []) cs) by (eapply Forall_impl; [|exact C]; cbn; tauto).
  assert (D' : Forall (fun c => atomic 0 c = true /\ c <> []) ds) by (eapply Forall_impl; [|exact D]; cbn; tauto).
  pose proof (C106_name 0 cs l C' L) as X. pose proof (C106_name 0 ds k D' K) as Y. cbn [repeat app] in X, Y.
  rewrite X, Y in E1, E2. cbn [fst snd] in E1, E2. split; [|exact E1].
  assert (LA : forall cs, last (around cs) [] = join cs).
  { intros xs. destruct xs as [|x xs] using rev_ind; [reflexivity|]. rewrite around_snoc. apply last_last. }
  rewrite !LA in E2. apply join_inj; [| |exact E2]; [eapply Forall_impl; [|exact C]|eapply Forall_impl; [|exact D]]; cbn; tauto.
Qed.
Print Assumptions C106_injective.
Example C106_injective_ex : Forall (fun c => atomic 0 c = true /\ c <> [] /\ nodot c) [bs "a"; bs "b"].
Proof. repeat (constructor; [split; [reflexivity|split; [discriminate|nd]]|]). constructor. Qed.

Lemma ensure_keep : forall ms p k v, mfind bcmp k (fst p) = Some v -> mfind bcmp k (fst (fold_left ensure ms p)) = Some v.
Proof.
  induction ms as [|m ms IH]; intros p k v H; [exact H|]. cbn [fold_left]. apply IH. unfold ensure.
  destruct (mfind bcmp m (fst p)) eqn:E; [exact H|]. cbn [fst].
  destruct (bcmp k m) eqn:B; [apply bcmp_eq in B; subst; congruence| |];
    (rewrite (mfind_mset_other bcmp bcmp_eq); [exact H|intros ->; rewrite ((proj2 (bcmp_eq m m)) eq_refl) in B; discriminate]).
Qed.
Lemma ensure_all : forall ms p m, In m ms -> exists v, mfind bcmp m (fst (fold_left ensure ms p)) = Some v.
Proof.
  induction ms as [|x ms IH]; intros p m I; [destruct I|]. destruct I as [->|I]; [|now apply IH].
  cbn [fold_left]. assert (E : exists v, mfind bcmp m (fst (ensure p m)) = Some v).
  { unfold ensure. destruct (mfind bcmp m (fst p)) as [v|] eqn:E; [eauto|]. cbn [fst]. rewrite (mfind_mset_same bcmp bcmp_eq). eauto. }
  destruct E as [v E]. exists v. now apply ensure_keep.
Qed.
(** C106: every scope around the name has an object afterwards, those that had one keep it, and names in
    the same scope are registered in the same object, whatever else is registered in between *)
Theorem C106_scopes : forall p n cs l, Forall (fun c => atomic 0 c = true /\ c <> []) cs -> atomic 0 l = true ->
  let name := repeat ":"%char n ++ qualified cs l in
  (forall i, (i < length cs)%nat -> exists v, mfind bcmp (join (firstn (S i) cs)) (fst (set_scope p name)) = Some v) /\
  (forall k v, mfind bcmp k (fst p) = Some v -> mfind bcmp k (fst (set_scope p name)) = Some v) /\
  (cs <> [] -> entered p name = mfind bcmp (join cs) (fst (set_scope p name))).
Proof.
  intros p n cs l C L name. unfold entered, set_scope, name. rewrite (C106_name n cs l C L). cbn [snd]. split; [|split].
  - intros i I. apply ensure_all. unfold around. apply (in_map (fun i => join (firstn (S i) cs))). apply in_seq. lia.
  - intros k v H. now apply ensure_keep.
  - intros NE. destruct cs as [|c cs] using rev_ind; [congruence|]. rewrite around_snoc, rev_app_distr. reflexivity.
Qed.
Print Assumptions C106_scopes.
Theorem C106_same : forall p cs l k others n m, Forall (fun c => atomic 0 c = true /\ c <> []) cs -> cs <> [] -> atomic 0 l = true -> atomic 0 k = true ->
  let p1 := set_scope p (repeat ":"%char n ++ qualified cs l) in
  let p2 := fold_left set_scope others p1 in
  exists o, entered p (repeat ":"%char n ++ qualified cs l) = Some o /\ entered p2 (repeat ":"%char m ++ qualified cs k) = Some o.
Proof.
  intros p cs l k others n m C NE L K p1 p2.
  destruct (C106_scopes p n cs l C L) as (A & _ & E). specialize (E NE).
  destruct (A (pred (length cs))) as [v V]; [destruct cs; [congruence|cbn; lia]|].
  replace (S (pred (length cs))) with (length cs) in V by (destruct cs; [congruence|reflexivity]). rewrite firstn_all in V.
  exists v. split; [now rewrite E|].
  destruct (C106_scopes p2 m cs k C K) as (_ & B & E2). rewrite (E2 NE). apply B. unfold p2. unfold p1.
  assert (G : forall others q, mfind bcmp (join cs) (fst q) = Some v -> mfind bcmp (join cs) (fst (fold_left set_scope others q)) = Some v).
  { clear. induction others as [|x others IH]; intros q H; [exact H|]. cbn [fold_left]. apply IH. unfold set_scope. now apply ensure_keep. }
  apply G. exact V.
Qed.
Print Assumptions C106_same.
Example C106_same_ex : entered ([], 1%nat) (bs "a::b::X") = Some 2%nat /\ entered (set_scope ([], 1%nat) (bs "a::b::X")) (bs "::a::b::Y<c::d>") = Some 2%nat.
Proof. vm_compute. auto. Qed.

(** the objects given so far are numbered below the next one, and no two names have the same *)
Definition separate (p : named) : Prop :=
  (forall k v, mfind bcmp k (fst p) = Some v -> (v < snd p)%nat) /\
  (forall k k' v, mfind bcmp k (fst p) = Some v -> mfind bcmp k' (fst p) = Some v -> k = k').
Lemma ensure_separate : forall p m, separate p -> separate (ensure p m).
Proof.
  intros p m (A & B). unfold ensure. destruct (mfind bcmp m (fst p)) eqn:E; [split; assumption|].
  assert (F : forall k, mfind bcmp k (mset bcmp m (snd p) (fst p)) = (if beq k m then Some (snd p) else mfind bcmp k (fst p))).
  { intros k. destruct (beq k m) eqn:X.
    - apply beq_eq in X. subst. apply (mfind_mset_same bcmp bcmp_eq).
    - apply (mfind_mset_other bcmp bcmp_eq). intros ->. rewrite beq_refl in X. discriminate. }
  split; cbn [fst snd].
  - intros k v. rewrite F. destruct (beq k m); intros H; [injection H as <-; lia|]. apply A in H. lia.
  - intros k k' v. rewrite !F. destruct (beq k m) eqn:X, (beq k' m) eqn:Y; intros H H'.
    + apply beq_eq in X, Y. congruence.
    + injection H as <-. apply A in H'. lia.
    + injection H' as <-. apply A in H. lia.
    + eapply B; eassumption.
Qed.
(** C106: different scopes have different objects, after any registrations *)
Theorem C106_distinct : forall qnames k k' v, let p := fold_left set_scope qnames ([], 1%nat) in
  mfind bcmp k (fst p) = Some v -> mfind bcmp k' (fst p) = Some v -> k = k'.
Proof.
  intros qnames k k' v. cbv zeta. assert (S : separate (fold_left set_scope qnames ([], 1%nat))).
  { assert (G : forall q p, separate p -> separate (fold_left set_scope q p)).
    { induction q as [|x q IH]; intros p H; [exact H|]. cbn [fold_left]. apply IH. unfold set_scope. clear IH.
      generalize (snd (extract x)). intros ms. revert p H. induction ms as [|m ms IH]; intros p H; [exact H|].
      cbn [fold_left]. apply IH. now apply ensure_separate. }
    apply G. split; cbn; intros; discriminate. }
  apply S.
Qed.
Print Assumptions C106_distinct.
Example C106_distinct_ex : let p := fold_left set_scope [bs "a::b::X"; bs "c::X"] ([], 1%nat) in
  mfind bcmp (bs "a") (fst p) = Some 1%nat /\ mfind bcmp (bs "a.b") (fst p) = Some 2%nat /\ mfind bcmp (bs "c") (fst p) = Some 3%nat.
Proof. vm_compute. auto. Qed.

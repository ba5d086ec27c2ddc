From Verif Require Import Base Base_Proofs Graph_Model Graph_Spec.
Ltac Zify.zify_post_hook ::= Z.div_mod_to_equations.

Lemma Forall2_len A B (P : A -> B -> Prop) l l' : Forall2 P l l' -> length l = length l'.
Proof. induction 1; cbn; auto. Qed.
Lemma get_app b s : get (length b) (b ++ s) = Some (b, s).
Proof.
  unfold get. rewrite app_length.
  replace (length b + length s <? length b)%nat with false by (symmetry; apply Nat.ltb_ge; lia).
  now rewrite firstn_app_l, skipn_app_l by reflexivity.
Qed.
Lemma get32_put n s : (n < 2^32)%N -> get32 (put32 n ++ s) = Some (n, s).
Proof.
  intro H. unfold get32, put32. replace 4%nat with (length (le 4 n)) at 1 by apply le_length.
  rewrite get_app, unle_le; [reflexivity|exact H].
Qed.

(** ** trees *)
Scheme tree_ok_ind2 := Induction for tree_ok Sort Prop
  with fields_ok_ind2 := Induction for fields_ok Sort Prop.
Combined Scheme tree_ok_mut from tree_ok_ind2, fields_ok_ind2.

Lemma tup_eq layout np f old s : tup layout np (S f) old s =
  match get32 s with
  | None => None
  | Some (valid, s1) =>
      if (valid =? 0)%N then Some (old, s1)
      else match tup_fs layout np f layout s1 with
           | Some (fs, s2) => Some (TNode fs, s2)
           | None => None
           end
  end.
Proof. reflexivity. Qed.
Lemma tup_fs_eq layout np f ks s : tup_fs layout np (S f) ks s =
  match ks with
  | [] => Some (TFNil, s)
  | KData n :: ks' =>
      match get n s with
      | Some (b, s1) => match tup_fs layout np f ks' s1 with
                        | Some (fs, s2) => Some (TFData b fs, s2) | None => None end
      | None => None
      end
  | KPtr :: ks' =>
      match tup layout np f np s with
      | Some (p, s1) => match tup_fs layout np f ks' s1 with
                        | Some (fs, s2) => Some (TFPtr p fs, s2) | None => None end
      | None => None
      end
  end.
Proof. reflexivity. Qed.
Lemma tup_mono layout np : forall fuel,
  (forall old s r, tup layout np fuel old s = Some r -> tup layout np (S fuel) old s = Some r) /\
  (forall ks s r, tup_fs layout np fuel ks s = Some r -> tup_fs layout np (S fuel) ks s = Some r).
Proof.
  induction fuel as [|f [IH1 IH2]]; [split; discriminate|]. split.
  - intros old s r H. rewrite tup_eq in H. rewrite tup_eq.
    destruct (get32 s) as [[v s1]|]; [|discriminate]. destruct (v =? 0)%N; [exact H|].
    destruct (tup_fs layout np f layout s1) as [[fs s2]|] eqn:E; [|discriminate].
    apply IH2 in E. rewrite E. exact H.
  - intros ks s r H. rewrite tup_fs_eq in H. rewrite tup_fs_eq.
    destruct ks as [|[n|] ks]; [exact H| |].
    + destruct (get n s) as [[b s1]|]; [|discriminate].
      destruct (tup_fs layout np f ks s1) as [[fs s2]|] eqn:E; [|discriminate].
      apply IH2 in E. rewrite E. exact H.
    + destruct (tup layout np f np s) as [[p s1]|] eqn:E1; [|discriminate].
      destruct (tup_fs layout np f ks s1) as [[fs s2]|] eqn:E; [|discriminate].
      apply IH2 in E. apply IH1 in E1. rewrite E1, E. exact H.
Qed.
Lemma tup_mono_le layout np f g : (f <= g)%nat ->
  (forall old s r, tup layout np f old s = Some r -> tup layout np g old s = Some r) /\
  (forall ks s r, tup_fs layout np f ks s = Some r -> tup_fs layout np g ks s = Some r).
Proof.
  induction 1 as [|g H [I1 I2]]; [split; auto|]. split; intros.
  - apply tup_mono. auto.
  - apply tup_mono. auto.
Qed.

Lemma tree_roundtrip_all layout :
  (forall t, tree_ok layout t -> exists fuel, forall old s,
     tup layout TNull fuel old (tpk t ++ s) = Some (match t with TNull => old | _ => t end, s)) /\
  (forall ks fs, fields_ok layout ks fs -> exists fuel, forall s,
     tup_fs layout TNull fuel ks (tpk_fs fs ++ s) = Some (fs, s)).
Proof.
  apply tree_ok_mut.
  - exists 1%nat. intros old s. cbn [tpk]. rewrite tup_eq. rewrite get32_put by (cbn; lia). reflexivity.
  - intros fs _ (f & IH). exists (S f). intros old s. cbn [tpk]. rewrite tup_eq.
    rewrite <- app_assoc, get32_put by (cbn; lia). cbn [N.eqb]. now rewrite IH.
  - exists 1%nat. reflexivity.
  - intros b ks fs _ (f & IH). exists (S f). intro s. cbn [tpk_fs]. rewrite tup_fs_eq.
    rewrite <- app_assoc, get_app, IH. reflexivity.
  - intros p ks fs _ (f1 & IH1) _ (f2 & IH2). exists (S (f1 + f2)). intro s. cbn [tpk_fs]. rewrite tup_fs_eq.
    rewrite <- app_assoc.
    rewrite (proj1 (tup_mono_le layout TNull f1 (f1 + f2) ltac:(lia)) _ _ _ (IH1 TNull _)).
    rewrite (proj2 (tup_mono_le layout TNull f2 (f1 + f2) ltac:(lia)) _ _ _ (IH2 _)).
    destruct p; reflexivity.
Qed.

(** ** graphs *)
Section Graph.
Variable h : heap.
Variable rmx : N.
Variable ns : list nat.
Variable ty : nat.
Variable layout : nat -> list gkind.
Variable hp0 : list node.
Variable proot : option nat.
Hypothesis Hrm : (rmx < 2^32)%N.
Hypothesis HG : graph_ok h ns ty layout.
Notation base := (length hp0).

Definition pg_mid (rec : node -> pout -> option pout) p (out : list ascii) (st : nat -> gpst) s1 :=
  if (gp_level s1 =? rmx)%N
  then Some (out, upd_ty st ty (mk_gp (gp_map s1) (p :: gp_restart s1) (gp_level s1)))
  else match p with
  | None => Some (out ++ put32 0, upd_ty st ty s1)
  | Some n =>
      match lookup n (gp_map s1) with
      | None =>
          let id := (len (gp_map s1) + 1)%N in
          let s2 := mk_gp ((n, id) :: gp_map s1) (gp_restart s1) (gp_level s1) in
          match h n with
          | None => None
          | Some nd => rec nd (out ++ put32 id, upd_ty st ty s2)
          end
      | Some id => Some (out ++ put32 id, upd_ty st ty s1)
      end
  end.
Definition pg_post (drain : pout -> option pout) (r : option pout) :=
  match r with
  | None => None
  | Some (out, st) =>
      let s := st ty in
      let s' := mk_gp (gp_map s) (gp_restart s) ((gp_level s + (2^32 - 1)) mod 2^32)%N in
      let st := upd_ty st ty s' in
      if (gp_level s' =? 0)%N then drain (out, st) else Some (out, st)
  end.
Lemma pg_eq fuel p out st :
  pg h rmx (S fuel) ty p (out, st) =
  pg_post (pg_drain h rmx fuel ty)
    (pg_mid (pg_fields h rmx fuel) p
      (if (gp_level (st ty) =? 0)%N then out ++ put32 rmx else out) st
      (mk_gp (gp_map (st ty)) (gp_restart (st ty)) ((gp_level (st ty) + 1) mod 2^32)%N)).
Proof. reflexivity. Qed.
Lemma pg_fields_eq fuel fs o :
  pg_fields h rmx (S fuel) fs o =
  match fs with
  | [] => Some o
  | FData b :: fs' => pg_fields h rmx fuel fs' (fst o ++ b, snd o)
  | FPtr ty p :: fs' =>
      match pg h rmx fuel ty p o with
      | Some o' => pg_fields h rmx fuel fs' o'
      | None => None
      end
  end.
Proof. reflexivity. Qed.
Lemma pg_drain_eq fuel out st :
  pg_drain h rmx (S fuel) ty (out, st) =
  match gp_restart (st ty) with
  | [] => Some (out, upd_ty st ty (mk_gp [] [] (gp_level (st ty))))
  | p :: rs =>
      match pg h rmx fuel ty p (out, upd_ty st ty (mk_gp (gp_map (st ty)) rs (gp_level (st ty)))) with
      | Some o' => pg_drain h rmx fuel ty o'
      | None => None
      end
  end.
Proof. reflexivity. Qed.

Definition ures := (N * list ascii * uenv)%type.
Definition ug_mid (rec : list gkind -> nat -> nat -> N -> list ascii -> uenv -> option ures)
    sl rm s e s1 : option ures :=
  if (gu_level s1 =? rm)%N
  then Some (rm, s, set_st ty (mk_gu (gu_map s1) (sl :: gu_restart s1) (gu_level s1)) e)
  else match get32 s with
  | None => None
  | Some (myid, s) =>
      if (myid =? 0)%N then Some (rm, s, set_slot sl ty None (set_st ty s1 e))
      else match lookupN myid (gu_map s1) with
      | Some a => Some (rm, s, set_slot sl ty (Some a) (set_st ty s1 e))
      | None =>
          let a := length (u_heap e) in
          let s2 := mk_gu ((myid, a) :: gu_map s1) (gu_restart s1) (gu_level s1) in
          let e1 := mk_ue (u_heap e ++ [map new_field (layout ty)]) (u_root e) (u_st e) in
          rec (layout ty) a 0%nat rm s (set_slot sl ty (Some a) (set_st ty s2 e1))
      end
  end.
Definition ug_post (drain : N -> list ascii -> uenv -> option ures) (r : option ures) : option ures :=
  match r with
  | None => None
  | Some (rm, s, e) =>
      let t := u_st e ty in
      let t' := mk_gu (gu_map t) (gu_restart t) ((gu_level t + (2^32 - 1)) mod 2^32)%N in
      let e := set_st ty t' e in
      if (gu_level t' =? 0)%N then drain rm s e else Some (rm, s, e)
  end.
Lemma ug_eq fuel sl rm s e :
  ug layout (S fuel) ty sl rm s e =
  match (if (gu_level (u_st e ty) =? 0)%N then get32 s else Some (rm, s)) with
  | None => None
  | Some (rm, s) =>
      ug_post (ug_drain layout fuel ty)
        (ug_mid (ug_fields layout fuel) sl rm s e
           (mk_gu (gu_map (u_st e ty)) (gu_restart (u_st e ty)) ((gu_level (u_st e ty) + 1) mod 2^32)%N))
  end.
Proof. reflexivity. Qed.
Lemma ug_fields_eq fuel ks a j rm s e :
  ug_fields layout (S fuel) ks a j rm s e =
  match ks with
  | [] => Some (rm, s, e)
  | GData n :: ks' =>
      match get n s with
      | None => None
      | Some (b, s1) =>
          ug_fields layout fuel ks' a (S j) rm s1
            (mk_ue (set_field a j (FData b) (u_heap e)) (u_root e) (u_st e))
      end
  | GPtr ty :: ks' =>
      match ug layout fuel ty (SField a j) rm s e with
      | Some (rm', s', e') => ug_fields layout fuel ks' a (S j) rm' s' e'
      | None => None
      end
  end.
Proof. reflexivity. Qed.
Lemma ug_drain_eq fuel rm s e :
  ug_drain layout (S fuel) ty rm s e =
  match gu_restart (u_st e ty) with
  | [] => Some (rm, s, set_st ty (mk_gu [] [] (gu_level (u_st e ty))) e)
  | sl :: rs =>
      match ug layout fuel ty sl rm s (set_st ty (mk_gu (gu_map (u_st e ty)) rs (gu_level (u_st e ty))) e) with
      | Some (rm', s', e') => ug_drain layout fuel ty rm' s' e'
      | None => None
      end
  end.
Proof. reflexivity. Qed.

Lemma upd_ty_same A (f : nat -> A) k a : upd_ty f k a k = a.
Proof. unfold upd_ty. now rewrite Nat.eqb_refl. Qed.

(** *** the maps *)
Fixpoint numbered (m : list (nat * N)) : Prop :=
  match m with
  | [] => True
  | (_, id) :: m' => id = (len m' + 1)%N /\ numbered m'
  end.
Definition addr (id : N) : nat := (base + N.to_nat id - 1)%nat.
Definition umap (m : list (nat * N)) : list (N * nat) := map (fun '(n, id) => (id, addr id)) m.

Lemma numbered_bound m n id : numbered m -> In (n, id) m -> (1 <= id <= len m)%N.
Proof.
  clear Hrm HG.
  induction m as [|[x i] m IH]; cbn [numbered In]; [tauto|].
  intros [E Hm] [H|H]; rewrite len_cons.
  - injection H as <- <-. lia.
  - specialize (IH Hm H). lia.
Qed.
Lemma numbered_inj m n1 n2 id : numbered m -> In (n1, id) m -> In (n2, id) m -> n1 = n2.
Proof.
  clear Hrm HG.
  induction m as [|[x i] m IH]; cbn [numbered In]; [tauto|].
  intros [E Hm] [H1|H1] [H2|H2].
  - congruence.
  - injection H1 as <- <-. pose proof (numbered_bound _ _ _ Hm H2). lia.
  - injection H2 as <- <-. pose proof (numbered_bound _ _ _ Hm H1). lia.
  - auto.
Qed.
Lemma lookup_In n (id : N) (m : list (nat * N)) : lookup n m = Some id -> In (n, id) m.
Proof.
  induction m as [|[x i] m IH]; cbn [lookup]; [discriminate|].
  destruct (Nat.eqb_spec x n) as [->|]; intro H; [left; congruence|right; auto].
Qed.
Lemma lookup_None n (m : list (nat * N)) : lookup n m = None -> ~ In n (map fst m).
Proof.
  induction m as [|[x i] m IH]; cbn [lookup map fst In]; [tauto|].
  destruct (Nat.eqb_spec x n); [discriminate|]. intros H [H1|H1]; [auto|]. now apply IH in H.
Qed.
Lemma lookup_In_NoDup n (id : N) (m : list (nat * N)) : NoDup (map fst m) -> In (n, id) m -> lookup n m = Some id.
Proof.
  induction m as [|[x i] m IH]; cbn [lookup map fst In]; [tauto|].
  intros ND [H|H]; inversion ND; subst.
  - injection H as -> ->. now rewrite Nat.eqb_refl.
  - destruct (Nat.eqb_spec x n) as [->|]; [|auto].
    exfalso. apply H2. now apply (in_map fst) in H.
Qed.
Lemma umap_lookup m n id : numbered m -> In (n, id) m -> lookupN id (umap m) = Some (addr id).
Proof.
  induction m as [|[x i] m IH]; cbn [numbered In umap map lookupN]; [tauto|].
  intros [E Hm] [H|H].
  - injection H as -> ->. now rewrite N.eqb_refl.
  - destruct (N.eqb_spec i id) as [->|]; [reflexivity|]. now apply IH.
Qed.
Lemma umap_fresh m id : numbered m -> (len m < id)%N -> lookupN id (umap m) = None.
Proof.
  clear Hrm HG.
  induction m as [|[x i] m IH]; cbn [numbered umap map lookupN]; [reflexivity|].
  intros [E Hm] H. rewrite len_cons in H. destruct (N.eqb_spec i id); [lia|]. apply IH; auto. lia.
Qed.

(** *** slots *)
Definition src (m : list (nat * N)) (sl : slot) (x : field) : Prop :=
  match sl with
  | SRoot => x = FPtr ty proot
  | SField a j => exists n id nd, In (n, id) m /\ a = addr id /\ h n = Some nd /\
                                  nth_error nd j = Some x
  end.
Definition value (e : uenv) (sl : slot) : option field :=
  match sl with
  | SRoot => Some (FPtr ty (u_root e))
  | SField a j => match nth_error (u_heap e) a with Some nd => nth_error nd j | None => None end
  end.
Definition pok (m : list (nat * N)) (p q : option nat) : Prop :=
  match p, q with
  | None, None => True
  | Some n, Some a => exists id, In (n, id) m /\ a = addr id
  | _, _ => False
  end.
Definition fok (m : list (nat * N)) (x y : field) : Prop :=
  match x, y with
  | FData b, FData c => b = c
  | FPtr t p, FPtr t' q => t = t' /\ pok m p q
  | _, _ => False
  end.
Definition okslot e m sl x : Prop := exists y, value e sl = Some y /\ fok m x y.

Record Rel (m : list (nat * N)) (pend : list (option nat * slot)) (O : slot -> Prop) (e : uenv)
  : Prop := {
  r_num : numbered m;
  r_nd : NoDup (map fst m);
  r_in : forall n, In n (map fst m) -> In n ns;
  r_len : length (u_heap e) = (base + length m)%nat;
  r_old : firstn base (u_heap e) = hp0;
  r_shape : forall n id nd, In (n, id) m -> h n = Some nd ->
     exists nd', nth_error (u_heap e) (addr id) = Some nd' /\ length nd' = length nd;
  r_pend : forall p sl, In (p, sl) pend -> src m sl (FPtr ty p);
  r_ok : forall sl x, src m sl x -> O sl \/ In sl (map snd pend) \/ okslot e m sl x }.

Lemma pok_mono m d p q : pok m p q -> pok (d ++ m) p q.
Proof.
  destruct p, q; cbn; auto. intros (id & H & E). exists id. split; auto. apply in_or_app; auto.
Qed.
Lemma fok_mono m d x y : fok m x y -> fok (d ++ m) x y.
Proof. destruct x, y; cbn; auto. intros [H1 H2]. split; auto. now apply pok_mono. Qed.
Lemma src_mono m d sl x : src m sl x -> src (d ++ m) sl x.
Proof.
  destruct sl; cbn; auto. intros (n & id & nd & H1 & H2). exists n, id, nd.
  split; auto. apply in_or_app; auto.
Qed.

Lemma nth_set_nth A (l : list A) j x : forall i,
  nth_error (set_nth j x l) i = if (i =? j)%nat then
     match nth_error l j with Some _ => Some x | None => None end else nth_error l i.
Proof.
  revert j. induction l as [|y l IH]; intros j i; [destruct j, i; cbn; try reflexivity|].
  - destruct (i =? j)%nat; reflexivity.
  - destruct j, i; cbn [set_nth nth_error Nat.eqb]; auto.
Qed.
Lemma length_set_nth A (l : list A) j x : length (set_nth j x l) = length l.
Proof. revert j; induction l; intros [|j]; cbn; auto. Qed.
Lemma firstn_set_nth A (l : list A) b j x : (b <= j)%nat -> firstn b (set_nth j x l) = firstn b l.
Proof.
  revert b j. induction l as [|y l IH]; intros [|b] [|j] H; cbn [set_nth firstn]; auto; try lia.
  f_equal. apply IH. lia.
Qed.

(** storing a field at address [a], index [j] *)
Lemma set_field_value hp a j x a' j' nd :
  nth_error hp a = Some nd -> (j < length nd)%nat ->
  match nth_error (set_field a j x hp) a' with Some nd => nth_error nd j' | None => None end =
  if (a' =? a)%nat && (j' =? j)%nat then Some x
  else match nth_error hp a' with Some nd => nth_error nd j' | None => None end.
Proof.
  intros H L. unfold set_field in *. rewrite H, nth_set_nth, H.
  destruct (Nat.eqb_spec a' a) as [->|]; cbn [andb]; [|reflexivity].
  rewrite nth_set_nth, H. destruct (Nat.eqb_spec j' j) as [->|]; [|reflexivity].
  destruct (nth_error nd j) eqn:E; [reflexivity|]. apply nth_error_None in E. lia.
Qed.
Lemma set_field_len hp a j x : length (set_field a j x hp) = length hp.
Proof. unfold set_field. destruct (nth_error hp a); auto. apply length_set_nth. Qed.
Lemma set_field_old hp a j x b : (b <= a)%nat -> firstn b (set_field a j x hp) = firstn b hp.
Proof. intro H. unfold set_field. destruct (nth_error hp a); auto. now apply firstn_set_nth. Qed.
Lemma set_field_shape hp a j x a' nd' :
  nth_error hp a' = Some nd' ->
  exists nd2, nth_error (set_field a j x hp) a' = Some nd2 /\ length nd2 = length nd'.
Proof.
  intro H. unfold set_field in *. destruct (nth_error hp a) as [nd|] eqn:E; [|eauto].
  rewrite nth_set_nth, E. destruct (Nat.eqb_spec a' a) as [->|]; [|eauto].
  eexists. split; [reflexivity|]. rewrite length_set_nth. congruence.
Qed.

Lemma slot_eq_dec (x y : slot) : {x = y} + {x <> y}.
Proof. decide equality; apply Nat.eq_dec. Qed.

Lemma In_addr_inj m n1 id1 n2 id2 : numbered m -> In (n1, id1) m -> In (n2, id2) m ->
  addr id1 = addr id2 -> id1 = id2.
Proof.
  clear Hrm HG.
  intros Hm H1 H2 E. pose proof (numbered_bound _ _ _ Hm H1). pose proof (numbered_bound _ _ _ Hm H2).
  unfold addr in E. lia.
Qed.

(** a slot that must receive [x] receives [y] *)
Definition store (sl : slot) (y : field) (e : uenv) : uenv :=
  match sl, y with
  | SRoot, FPtr _ p => mk_ue (u_heap e) p (u_st e)
  | SRoot, _ => e
  | SField a j, _ => mk_ue (set_field a j y (u_heap e)) (u_root e) (u_st e)
  end.
Lemma set_slot_store sl p e : set_slot sl ty p e = store sl (FPtr ty p) e.
Proof. destruct sl; reflexivity. Qed.

Lemma store_rel m pend O e sl x y :
  Rel m pend O e -> src m sl x -> fok m x y ->
  Rel m pend (fun s => O s /\ s <> sl) (store sl y e) /\ u_st (store sl y e) = u_st e.
Proof.
  intros [R1 R2 R3 R4 R5 R6 R7 R8] Hs Hf.
  assert (VAL : forall sl', src m sl' x \/ True -> value (store sl y e) sl' =
     if slot_eq_dec sl' sl then Some y else value e sl').
  { intros sl' _. destruct sl as [|a j].
    - cbn in Hs. subst x. destruct y as [|t' q]; cbn in Hf; [tauto|]. destruct Hf as [<- Hf].
      cbn [store]. destruct (slot_eq_dec sl' SRoot) as [->|]; [reflexivity|].
      destruct sl'; [congruence|reflexivity].
    - destruct Hs as (n & id & nd & I1 & -> & Hn & Hj).
      destruct (R6 _ _ _ I1 Hn) as (nd' & N1 & N2).
      assert (Hlt : (j < length nd')%nat) by (rewrite N2; apply nth_error_Some; congruence).
      cbn [store]. destruct sl' as [|a' j'].
      + destruct (slot_eq_dec SRoot (SField (addr id) j)); [discriminate|reflexivity].
      + cbn [value u_heap]. rewrite (set_field_value _ _ _ _ _ _ nd' N1 Hlt).
        destruct (slot_eq_dec (SField a' j') (SField (addr id) j)) as [E|E].
        * injection E as -> ->. now rewrite !Nat.eqb_refl.
        * destruct (Nat.eqb_spec a' (addr id)) as [->|]; [|reflexivity].
          destruct (Nat.eqb_spec j' j) as [->|]; [congruence|reflexivity]. }
  split.
  - constructor; auto.
    + destruct sl; cbn [store u_heap]; [destruct y; assumption|]. cbn [u_heap]. now rewrite set_field_len.
    + destruct sl as [|a j]; cbn [store]; [destruct y; assumption|]. cbn [u_heap].
      rewrite set_field_old; auto. destruct Hs as (n & id & nd & I1 & -> & _).
      pose proof (numbered_bound _ _ _ R1 I1). unfold addr. lia.
    + intros n id nd I1 Hn. destruct (R6 _ _ _ I1 Hn) as (nd' & N1 & N2).
      destruct sl as [|a j]; cbn [store]; [destruct y; eauto|]. cbn [u_heap].
      destruct (set_field_shape _ a j y _ _ N1) as (nd2 & E1 & E2). exists nd2. split; auto. congruence.
    + intros sl' x' Hs'. destruct (slot_eq_dec sl' sl) as [->|NE].
      * right. right. exists y. split; [rewrite VAL by auto; destruct (slot_eq_dec sl sl); congruence|].
        destruct sl as [|a j]; cbn in Hs, Hs'; [congruence|].
        destruct Hs as (n & id & nd & I1 & -> & Hn & Hj).
        destruct Hs' as (n2 & id2 & nd2 & I2 & EA & Hn2 & Hj2).
        assert (id = id2) by (eapply In_addr_inj; eauto). subst id2.
        assert (n = n2) by (eapply numbered_inj; eauto). subst n2. congruence.
      * destruct (R8 _ _ Hs') as [A|[A|A]]; auto. right. right.
        destruct A as (z & V & F). exists z. split; auto. rewrite VAL by auto.
        destruct (slot_eq_dec sl' sl); congruence.
  - destruct sl; cbn [store]; [destruct y; reflexivity|reflexivity].
Qed.

Lemma rel_weaken m pend (O O' : slot -> Prop) e :
  Rel m pend O e -> (forall sl x, src m sl x -> O sl -> O' sl \/ In sl (map snd pend)) -> Rel m pend O' e.
Proof.
  intros [R1 R2 R3 R4 R5 R6 R7 R8] H. constructor; auto.
  intros sl x Hs. destruct (R8 _ _ Hs) as [A|A]; auto. destruct (H _ _ Hs A); auto.
Qed.
Lemma rel_env m pend O e e' :
  Rel m pend O e -> u_heap e' = u_heap e -> u_root e' = u_root e -> Rel m pend O e'.
Proof.
  intros [R1 R2 R3 R4 R5 R6 R7 R8] H1 H2. constructor; auto; try (rewrite H1; auto).
  intros sl x Hs. destruct (R8 _ _ Hs) as [A|[A|(y & V & F)]]; auto. right; right. exists y.
  split; auto. destruct sl; cbn [value] in *; [now rewrite H2|now rewrite H1].
Qed.
Lemma rel_push m pend O e p sl :
  Rel m pend O e -> src m sl (FPtr ty p) -> 
  Rel m ((p, sl) :: pend) (fun s => O s /\ s <> sl) e.
Proof.
  intros [R1 R2 R3 R4 R5 R6 R7 R8] H. constructor; auto.
  - intros q sl' [E|E]; [injection E as <- <-; auto|auto].
  - intros sl' x Hs. cbn [map snd In]. destruct (slot_eq_dec sl' sl) as [->|NE]; [auto|].
    destruct (R8 _ _ Hs) as [A|[A|A]]; auto.
Qed.
Lemma rel_pop m pend e p sl :
  Rel m ((p, sl) :: pend) (fun _ => False) e ->
  Rel m pend (fun s => s = sl) e /\ src m sl (FPtr ty p).
Proof.
  intros [R1 R2 R3 R4 R5 R6 R7 R8]. split; [constructor; auto|].
  - intros q sl' E. apply R7. now right.
  - intros sl' x Hs. destruct (R8 _ _ Hs) as [[]|[A|A]]; auto. destruct A as [A|A]; auto.
  - apply R7. now left.
Qed.

(** a new object *)
Lemma nth_snoc A (l : list A) x i :
  nth_error (l ++ [x]) i = if (i =? length l)%nat then Some x else nth_error l i.
Proof.
  destruct (Nat.eqb_spec i (length l)) as [->|NE].
  - rewrite nth_error_app2 by lia. now rewrite Nat.sub_diag.
  - destruct (Nat.lt_ge_cases i (length l)) as [L|L].
    + now rewrite nth_error_app1.
    + rewrite nth_error_app2 by lia. destruct (i - length l)%nat eqn:E; [lia|]. cbn.
      rewrite (proj2 (nth_error_None l i)) by lia. now destruct n.
Qed.
Lemma rel_new m pend O e n nd :
  Rel m pend O e -> lookup n m = None -> In n ns -> h n = Some nd ->
  length nd = length (layout ty) ->
  Rel ((n, (len m + 1)%N) :: m) pend
      (fun s => O s \/ exists j, s = SField (length (u_heap e)) j)
      (mk_ue (u_heap e ++ [map new_field (layout ty)]) (u_root e) (u_st e)) /\
  addr (len m + 1) = length (u_heap e).
Proof.
  intros [R1 R2 R3 R4 R5 R6 R7 R8] HL Hn Hh Hlen.
  assert (AD : addr (len m + 1) = length (u_heap e)) by (rewrite R4; unfold addr, len; lia).
  split; [|exact AD]. constructor.
  - cbn. auto.
  - cbn [map fst]. constructor; auto. now apply lookup_None.
  - intros k [<-|H]; auto.
  - cbn [u_heap]. rewrite app_length, R4. cbn. lia.
  - cbn [u_heap]. rewrite firstn_app. replace (base - length (u_heap e))%nat with 0%nat by lia.
    cbn [firstn]. now rewrite app_nil_r.
  - intros n2 id nd2 [E|I2] Hh2; cbn [u_heap]; rewrite nth_snoc.
    + injection E as <- <-. rewrite AD, Nat.eqb_refl. eexists; split; [reflexivity|].
      rewrite map_length. congruence.
    + pose proof (numbered_bound _ _ _ R1 I2). destruct (Nat.eq_dec (addr id) (length (u_heap e))) as [E|E].
      * exfalso. rewrite R4 in E. unfold addr in E. unfold len in H. lia.
      * rewrite (proj2 (Nat.eqb_neq _ _) E). exact (R6 _ _ _ I2 Hh2).
  - intros p sl H. apply (src_mono m [_]). auto.
  - intros sl x Hs.
    assert (D : (exists j, sl = SField (length (u_heap e)) j) \/ (src m sl x /\ forall j, sl <> SField (length (u_heap e)) j)).
    { destruct sl as [|a j].
      - right. split; [exact Hs|discriminate].
      - destruct Hs as (n2 & id & nd2 & [E|I2] & -> & Hh2 & Hj).
        + injection E as <- <-. left. exists j. now rewrite AD.
        + right. split; [exists n2, id, nd2; auto|]. intros j' E. injection E as E _.
          pose proof (numbered_bound _ _ _ R1 I2). rewrite R4 in E. unfold addr, len in *. lia. }
    destruct D as [D|[D ND]]; [auto|].
    destruct (R8 _ _ D) as [A|[A|(y & V & F)]]; auto. right; right. exists y. split.
    + destruct sl as [|a j]; cbn [value u_heap u_root] in *; [exact V|].
      rewrite nth_snoc. destruct (Nat.eqb_spec a (length (u_heap e))) as [E|E]; [|exact V].
      exfalso. subst a. eapply ND. reflexivity.
    + now apply (fok_mono m [_]).
Qed.

(** *** the simulation *)
Lemma len_map_le m : NoDup (map fst m) -> (forall n, In n (map fst m) -> In n ns) ->
  (len (A:=nat*N) m <= len ns)%N.
Proof.
  intros H1 H2. unfold len. apply N2Z.inj_le. rewrite !nat_N_Z. apply inj_le.
  rewrite <- (map_length fst m). apply NoDup_incl_length; auto.
Qed.
Lemma len_ns : (len ns < 2^31)%N.
Proof. apply HG. Qed.
Lemma lvl_up L : (L <= len ns)%N -> ((L + 1) mod 2^32 = L + 1)%N.
Proof. intro H. pose proof len_ns as X. clear Hrm. apply N.mod_small. cbn in *. lia. Qed.
Lemma lvl_down L : (L <= len ns)%N -> ((L + 1 + (2^32 - 1)) mod 2^32 = L)%N.
Proof.
  intro H. pose proof len_ns as X. clear Hrm. replace (L + 1 + (2^32 - 1))%N with (L + 1 * 2^32)%N by lia.
  rewrite N.mod_add by discriminate. apply N.mod_small. cbn in *. lia.
Qed.

Definition Fields (fuel : nat) : Prop :=
  forall fs ks j nd n id pend m O out sg L e out' sg',
  In (n, id) m -> h n = Some nd -> skipn j nd = fs -> (j <= length nd)%nat ->
  Forall2 (fits ty ns) fs ks ->
  Rel m pend (fun s => O s \/ exists i, (j <= i)%nat /\ s = SField (addr id) i) e ->
  sg ty = mk_gp m (map fst pend) L -> u_st e ty = mk_gu (umap m) (map snd pend) L ->
  (1 <= L <= len m)%N ->
  pg_fields h rmx fuel fs (out, sg) = Some (out', sg') ->
  exists w d pend' e', out' = out ++ w /\ sg' ty = mk_gp (d ++ m) (map fst pend') L /\
    (forall rest, ug_fields layout fuel ks (addr id) j rmx (w ++ rest) e = Some (rmx, rest, e')) /\
    Rel (d ++ m) pend' O e' /\ u_st e' ty = mk_gu (umap (d ++ m)) (map snd pend') L.

Definition Inner (fuel : nat) : Prop :=
  forall p sl pend m O out sg L e out' sg',
  Rel m pend O e -> sg ty = mk_gp m (map fst pend) L -> u_st e ty = mk_gu (umap m) (map snd pend) L ->
  (1 <= L <= len m)%N -> src m sl (FPtr ty p) -> ptr_in ns p ->
  pg h rmx fuel ty p (out, sg) = Some (out', sg') ->
  exists w d pend' e', out' = out ++ w /\ sg' ty = mk_gp (d ++ m) (map fst pend') L /\
    (forall rest, ug layout fuel ty sl rmx (w ++ rest) e = Some (rmx, rest, e')) /\
    Rel (d ++ m) pend' (fun s => O s /\ s <> sl) e' /\
    u_st e' ty = mk_gu (umap (d ++ m)) (map snd pend') L.

Lemma node_of n : In n ns -> exists nd, h n = Some nd /\ Forall2 (fits ty ns) nd (layout ty).
Proof. apply HG. Qed.

Lemma mid_sim fuel (IHf : Fields fuel) p sl pend m O out sg L e out' sg' :
  Rel m pend O e -> (1 <= L <= len m + 1)%N -> src m sl (FPtr ty p) -> ptr_in ns p ->
  pg_mid (pg_fields h rmx fuel) p out sg (mk_gp m (map fst pend) L) = Some (out', sg') ->
  exists w d pend' e', out' = out ++ w /\ sg' ty = mk_gp (d ++ m) (map fst pend') L /\
    (forall rest, ug_mid (ug_fields layout fuel) sl rmx (w ++ rest) e (mk_gu (umap m) (map snd pend) L)
      = Some (rmx, rest, e')) /\
    Rel (d ++ m) pend' (fun s => O s /\ s <> sl) e' /\
    u_st e' ty = mk_gu (umap (d ++ m)) (map snd pend') L.
Proof.
  intros HR HL Hs Hp H. pose proof (len_map_le m (r_nd _ _ _ _ HR) (r_in _ _ _ _ HR)) as LE.
  pose proof len_ns as LN.
  unfold pg_mid in H. unfold ug_mid. cbn [gp_level gp_map gp_restart gu_level gu_map gu_restart] in *.
  destruct (L =? rmx)%N eqn:EL.
  { injection H as <- <-. exists [], [], ((p, sl) :: pend). eexists. rewrite app_nil_r.
    split; [reflexivity|]. split; [now rewrite upd_ty_same|].
    split; [intro rest; reflexivity|]. split.
    - eapply rel_env; [apply rel_push; eauto|reflexivity|reflexivity].
    - cbn [set_st u_st]. now rewrite upd_ty_same. }
  destruct p as [n|].
  2:{ injection H as <- <-. exists (put32 0), [], pend. eexists. split; [reflexivity|].
    split; [now rewrite upd_ty_same|]. split.
    { intro rest. rewrite get32_put by (cbn; lia). cbn [N.eqb]. reflexivity. }
    rewrite set_slot_store. set (e1 := set_st ty _ e).
    assert (HR1 : Rel m pend O e1) by (eapply rel_env; [exact HR|reflexivity|reflexivity]).
    destruct (store_rel m pend O e1 sl (FPtr ty None) (FPtr ty None) HR1 Hs) as [A B]; [cbn; auto|].
    split; [exact A|]. rewrite B. unfold e1. cbn [set_st u_st]. now rewrite upd_ty_same. }
  cbn [ptr_in] in Hp. destruct (lookup n m) as [id|] eqn:LK.
  { injection H as <- <-. apply lookup_In in LK.
    pose proof (numbered_bound _ _ _ (r_num _ _ _ _ HR) LK) as BD.
    exists (put32 id), [], pend. eexists. split; [reflexivity|].
    split; [now rewrite upd_ty_same|]. split.
    { intro rest. rewrite get32_put by (cbn in *; lia).
      destruct (N.eqb_spec id 0); [lia|].
      rewrite (umap_lookup m n id (r_num _ _ _ _ HR) LK). reflexivity. }
    rewrite set_slot_store. set (e1 := set_st ty _ e).
    assert (HR1 : Rel m pend O e1) by (eapply rel_env; [exact HR|reflexivity|reflexivity]).
    destruct (store_rel m pend O e1 sl (FPtr ty (Some n)) (FPtr ty (Some (addr id))) HR1 Hs) as [A B];
      [cbn; eauto|].
    split; [exact A|]. rewrite B. unfold e1. cbn [set_st u_st]. now rewrite upd_ty_same. }
  destruct (node_of n Hp) as (nd & Hn & Hfit). rewrite Hn in H.
  assert (NEW : (len m + 1 <= len ns)%N).
  { pose proof (len_map_le ((n, 0%N) :: m)) as X. rewrite len_cons in X.
    assert ((1 + len m <= len ns)%N); [|lia]. apply X; cbn [map fst].
    - constructor; [now apply lookup_None|apply HR].
    - intros k [<-|K]; auto. now apply HR. }
  destruct (rel_new m pend O e n nd HR LK Hp Hn) as [HR1 AD]; [eapply Forall2_len; eauto|].
  set (m1 := (n, (len m + 1)%N) :: m) in *.
  set (e1 := mk_ue _ _ _) in HR1.
  set (e2 := set_st ty (mk_gu (umap m1) (map snd pend) L) e1).
  assert (HR2 : Rel m1 pend (fun s => O s \/ exists j, s = SField (length (u_heap e)) j) e2)
    by (eapply rel_env; [exact HR1|reflexivity|reflexivity]).
  assert (Hs1 : src m1 sl (FPtr ty (Some n))) by (apply (src_mono m [_]); exact Hs).
  destruct (store_rel m1 pend _ e2 sl (FPtr ty (Some n)) (FPtr ty (Some (addr (len m + 1)))) HR2 Hs1)
    as [HR3 B]. { cbn [fok pok]. split; auto. exists (len m + 1)%N. split; [now left|reflexivity]. }
  set (e3 := store sl (FPtr ty (Some (addr (len m + 1)))) e2) in *.
  assert (HR4 : Rel m1 pend (fun s => (O s /\ s <> sl) \/ exists i, (0 <= i)%nat /\ s = SField (addr (len m + 1)) i) e3).
  { eapply rel_weaken; [exact HR3|]. intros s x _ [[A|[j A]] NE].
    - left. left. auto.
    - left. right. exists j. rewrite AD. split; [lia|exact A]. }
  destruct (IHf nd (layout ty) 0%nat nd n (len m + 1)%N pend m1 (fun s => O s /\ s <> sl) (out ++ put32 (len m + 1))
     (upd_ty sg ty (mk_gp m1 (map fst pend) L)) L e3 out' sg') as (w & d & pend' & e' & E1 & E2 & E3 & E4).
  - now left.
  - exact Hn.
  - reflexivity.
  - lia.
  - exact Hfit.
  - exact HR4.
  - now rewrite upd_ty_same.
  - rewrite B. unfold e2. cbn [set_st u_st]. now rewrite upd_ty_same.
  - unfold m1. rewrite len_cons. lia.
  - exact H.
  - exists (put32 (len m + 1) ++ w), (d ++ [(n, (len m + 1)%N)]), pend', e'.
    rewrite <- !app_assoc. cbn [app]. fold m1.
    split; [subst out'; now rewrite app_assoc|]. split; [exact E2|]. split; [|exact E4]. intro rest.
    rewrite <- !app_assoc, get32_put by (cbn in *; lia).
    destruct (N.eqb_spec (len m + 1) 0); [lia|].
    rewrite umap_fresh by (try apply HR; lia).
    rewrite <- (E3 rest), set_slot_store. unfold e3, e2, e1, m1. cbn [umap map]. now rewrite AD.
Qed.

Lemma fields_inner fuel : Fields fuel /\ Inner fuel.
Proof.
  induction fuel as [|f [IHF IHI]];
    [split; unfold Fields, Inner; intros; discriminate|]. split.
  - intros fs ks j nd n id pend m O out sg L e out' sg' Hin Hn Hsk Hj Hfit HR Hg Hu HL H.
    rewrite pg_fields_eq in H. setoid_rewrite ug_fields_eq.
    destruct fs as [|x fs].
    { injection H as <- <-. inversion Hfit; subst ks. exists [], [], pend, e. rewrite app_nil_r.
      split; [reflexivity|]. split; [exact Hg|]. split; [reflexivity|].
      split; [|exact Hu]. eapply rel_weaken; [exact HR|]. intros s x Hs [A|(i & I1 & ->)]; auto.
      exfalso. destruct Hs as (n2 & id2 & nd2 & I2 & EA & Hn2 & Hi).
      pose proof (r_num _ _ _ _ HR) as NUM.
      assert (id = id2) by (eapply In_addr_inj; eauto). subst id2.
      assert (n = n2) by (eapply numbered_inj; eauto). subst n2.
      assert (nd2 = nd) by congruence. subst nd2.
      assert (i < length nd)%nat by (apply nth_error_Some; congruence).
      apply (f_equal (@length _)) in Hsk. rewrite skipn_length in Hsk. cbn in Hsk. lia. }
    assert (Hx : nth_error nd j = Some x).
    { rewrite <- (firstn_skipn j nd), Hsk, nth_error_app2; rewrite firstn_length_le by lia; [|lia].
      now rewrite Nat.sub_diag. }
    assert (Hsk' : skipn (S j) nd = fs).
    { change (S j) with (1 + j)%nat. rewrite <- skipn_skipn, Hsk. reflexivity. }
    assert (Hj' : (S j <= length nd)%nat) by (apply nth_error_Some; congruence).
    inversion Hfit as [|x' k fs' ks' Hf Hfit']; subst x' fs' ks.
    assert (Hs : src m (SField (addr id) j) x) by (exists n, id, nd; auto).
    destruct x as [b|t p], k as [sz|t']; cbn [fits] in Hf; try contradiction.
    + cbn [fst snd] in H.
      destruct (store_rel m pend _ e _ _ (FData b) HR Hs) as [HR1 B]; [reflexivity|].
      cbn [store] in HR1, B. rewrite <- B in Hu.
      assert (HR2 := rel_weaken _ _ _ (fun s => O s \/ exists i, (S j <= i)%nat /\ s = SField (addr id) i) _ HR1).
      destruct (IHF fs ks' (S j) nd n id pend m O (out ++ b) sg L _ out' sg' Hin Hn Hsk' Hj' Hfit'
          (HR2 ltac:(intros s x _ [[A|(i & I1 & ->)] NE]; auto; left; right; exists i; split; auto;
             destruct (Nat.eq_dec i j); [congruence|lia])) Hg Hu HL H)
        as (w & d & pend' & e' & E1 & E2 & E3 & E4).
      exists (b ++ w), d, pend', e'. split; [subst out'; now rewrite app_assoc|]. split; [exact E2|].
      split; [|exact E4].
      intro rest. rewrite <- app_assoc, <- Hf, get_app. apply E3.
    + destruct Hf as (-> & -> & Hp).
      destruct (pg h rmx f ty p (out, sg)) as [[o1 sg1]|] eqn:E; [|discriminate].
      destruct (IHI p (SField (addr id) j) pend m _ out sg L e o1 sg1 HR Hg Hu HL Hs Hp E)
        as (w1 & d1 & pend1 & e1 & A1 & A2 & A3 & A4 & A5).
      subst o1.
      assert (HR2 := rel_weaken _ _ _ (fun s => O s \/ exists i, (S j <= i)%nat /\ s = SField (addr id) i) _ A4).
      destruct (IHF fs ks' (S j) nd n id pend1 (d1 ++ m) O (out ++ w1) sg1 L e1 out' sg')
        as (w & d & pend' & e' & E1 & E2 & E3 & E4 & E5); auto.
      * apply in_or_app; auto.
      * apply HR2. intros s x _ [[A|(i & I1 & ->)] NE]; auto; left; right; exists i; split; auto;
             destruct (Nat.eq_dec i j); [congruence|lia].
      * rewrite len_app; lia.
      * exists (w1 ++ w), (d ++ d1), pend', e'. rewrite <- !app_assoc.
        split; [subst out'; now rewrite app_assoc|]. split; [exact E2|]. split; [|auto].
        intro rest. rewrite <- app_assoc, A3. apply E3.
  - intros p sl pend m O out sg L e out' sg' HR Hg Hu HL Hs Hp H.
    pose proof (len_map_le m (r_nd _ _ _ _ HR) (r_in _ _ _ _ HR)) as LE.
    rewrite pg_eq, Hg in H. cbn [gp_level gp_map gp_restart] in H.
    rewrite lvl_up in H by lia.
    destruct (N.eqb_spec L 0); [lia|].
    destruct (pg_mid _ _ _ _ _) as [[o1 sg1]|] eqn:E; [|discriminate].
    destruct (mid_sim f IHF p sl pend m O out sg (L + 1) e o1 sg1 HR ltac:(lia) Hs Hp E)
      as (w & d & pend' & e' & A1 & A2 & A3 & A4 & A5).
    cbn [pg_post] in H. rewrite A2 in H. cbn [gp_level gp_map gp_restart] in H.
    rewrite lvl_down in H by lia.
    destruct (N.eqb_spec L 0); [lia|]. injection H as <- <-.
    exists w, d, pend', (set_st ty (mk_gu (umap (d ++ m)) (map snd pend') L) e').
    split; [exact A1|]. split; [now rewrite upd_ty_same|]. split.
    { intro rest. rewrite ug_eq, Hu. cbn [gu_level gu_map gu_restart].
      rewrite lvl_up by lia. destruct (N.eqb_spec L 0); [lia|].
      rewrite A3. cbn [ug_post]. rewrite A5. cbn [gu_level gu_map gu_restart].
      rewrite lvl_down by lia. destruct (N.eqb_spec L 0); [lia|]. reflexivity. }
    split; [|cbn [set_st u_st]; now rewrite upd_ty_same].
    eapply rel_env; [exact A4|reflexivity|reflexivity].
Qed.

Definition Top (fuel : nat) : Prop :=
  forall p sl pend m out sg e out' sg',
  Rel m pend (fun s => s = sl) e -> sg ty = mk_gp m (map fst pend) 0 ->
  u_st e ty = mk_gu (umap m) (map snd pend) 0 ->
  src m sl (FPtr ty p) -> ptr_in ns p ->
  pg h rmx fuel ty p (out, sg) = Some (out', sg') ->
  exists w d e', out' = out ++ w /\ sg' ty = mk_gp [] [] 0 /\
    (forall rest rm, ug layout fuel ty sl rm (w ++ rest) e = Some (rmx, rest, e')) /\
    Rel (d ++ m) [] (fun s => False) e' /\
    u_st e' ty = mk_gu [] [] 0.
Definition Drain (fuel : nat) : Prop :=
  forall pend m out sg e out' sg',
  Rel m pend (fun s => False) e -> sg ty = mk_gp m (map fst pend) 0 ->
  u_st e ty = mk_gu (umap m) (map snd pend) 0 ->
  pg_drain h rmx fuel ty (out, sg) = Some (out', sg') ->
  exists w d e', out' = out ++ w /\ sg' ty = mk_gp [] [] 0 /\
    (forall rest, ug_drain layout fuel ty rmx (w ++ rest) e = Some (rmx, rest, e')) /\
    Rel (d ++ m) [] (fun s => False) e' /\
    u_st e' ty = mk_gu [] [] 0.

Lemma src_ptr_in m sl p : (forall n, In n (map fst m) -> In n ns) -> ptr_in ns proot ->
  src m sl (FPtr ty p) -> ptr_in ns p.
Proof.
  intros HI HP. destruct sl as [|a j]; cbn [src]; [intro E; injection E as ->; exact HP|].
  intros (n & id & nd & I1 & _ & Hn & Hj).
  destruct (node_of n) as (nd' & Hn' & Hf). { apply HI. apply (in_map fst) in I1. exact I1. }
  assert (nd' = nd) by congruence. subst nd'. clear Hn Hn'.
  revert j Hj. induction Hf as [|x k nd ks Hx _ IH]; intros [|j] Hj; cbn in Hj; try discriminate.
  - injection Hj as ->. destruct k; cbn in Hx; [tauto|]. apply Hx.
  - eauto.
Qed.

Lemma top_drain (HP : ptr_in ns proot) fuel : Top fuel /\ Drain fuel.
Proof.
  induction fuel as [|f [IHT IHD]]; [split; unfold Top, Drain; intros; discriminate|].
  pose proof (proj1 (fields_inner f)) as IHF. split.
  - intros p sl pend m out sg e out' sg' HR Hg Hu Hs Hp H.
    rewrite pg_eq, Hg in H. cbn [gp_level gp_map gp_restart] in H.
    rewrite lvl_up in H by lia. cbn [N.eqb] in H.
    destruct (pg_mid _ _ _ _ _) as [[o1 sg1]|] eqn:E; [|discriminate].
    destruct (mid_sim f IHF p sl pend m _ (out ++ put32 rmx) sg (0 + 1) e o1 sg1 HR ltac:(lia) Hs Hp E)
      as (w & d & pend' & e' & A1 & A2 & A3 & A4 & A5).
    cbn [pg_post] in H. rewrite A2 in H. cbn [gp_level gp_map gp_restart] in H.
    rewrite lvl_down in H by lia. cbn [N.eqb] in H.
    destruct (IHD pend' (d ++ m) o1 (upd_ty sg1 ty (mk_gp (d ++ m) (map fst pend') 0))
       (set_st ty (mk_gu (umap (d ++ m)) (map snd pend') 0) e') out' sg')
      as (w2 & d2 & e2 & B1 & B2 & B3 & B4 & B5).
    { eapply rel_env; [eapply rel_weaken; [exact A4|]|reflexivity|reflexivity]. intros s x _ [-> NE]; congruence. }
    { now rewrite upd_ty_same. }
    { cbn [set_st u_st]. now rewrite upd_ty_same. }
    { exact H. }
    exists (put32 rmx ++ w ++ w2), (d2 ++ d), e2. rewrite <- app_assoc.
    split; [subst; now rewrite <- !app_assoc|]. split; [exact B2|]. split; [|auto].
    intros rest rm. rewrite ug_eq, Hu. cbn [gu_level gu_map gu_restart N.eqb].
    rewrite <- !app_assoc, get32_put by exact Hrm. rewrite lvl_up by lia.
    rewrite A3. cbn [ug_post]. rewrite A5. cbn [gu_level gu_map gu_restart].
    rewrite lvl_down by lia. cbn [N.eqb]. apply B3.
  - intros pend m out sg e out' sg' HR Hg Hu H.
    rewrite pg_drain_eq, Hg in H. cbn [gp_level gp_map gp_restart] in H.
    setoid_rewrite ug_drain_eq. rewrite Hu. cbn [gu_level gu_map gu_restart].
    destruct pend as [|[p sl] pend]; cbn [map fst snd] in *.
    + injection H as <- <-. exists [], [], (set_st ty (mk_gu [] [] 0) e). rewrite app_nil_r.
      split; [reflexivity|]. split; [now rewrite upd_ty_same|]. split; [reflexivity|].
      split; [|cbn [set_st u_st]; now rewrite upd_ty_same].
      eapply rel_env; [exact HR|reflexivity|reflexivity].
    + destruct (rel_pop _ _ _ _ _ HR) as [HR1 Hs].
      destruct (pg h rmx f ty p _) as [[o1 sg1]|] eqn:E; [|discriminate].
      destruct (IHT p sl pend m out (upd_ty sg ty (mk_gp m (map fst pend) 0))
         (set_st ty (mk_gu (umap m) (map snd pend) 0) e) o1 sg1)
        as (w & d & e' & A1 & A2 & A3 & A4 & A5).
      { eapply rel_env; [exact HR1|reflexivity|reflexivity]. }
      { now rewrite upd_ty_same. }
      { cbn [set_st u_st]. now rewrite upd_ty_same. }
      { exact Hs. }
      { eapply src_ptr_in; eauto. apply HR. }
      { exact E. }
      destruct f as [|f']; [discriminate|]. rewrite pg_drain_eq, A2 in H.
      cbn [gp_level gp_map gp_restart] in H. injection H as <- <-.
      exists w, d, (set_st ty (mk_gu [] [] 0) e'). split; [exact A1|].
      split; [now rewrite upd_ty_same|]. split.
      { intro rest. rewrite A3, ug_drain_eq, A5. reflexivity. }
      split; [|cbn [set_st u_st]; now rewrite upd_ty_same].
      eapply rel_env; [exact A4|reflexivity|reflexivity].
Qed.

(** *** termination *)
Definition allty (fs : node) := Forall (fun x => match x with FPtr t p => t = ty /\ ptr_in ns p | _ => True end) fs.
Lemma fits_allty fs ks : Forall2 (fits ty ns) fs ks -> allty fs.
Proof.
  induction 1 as [|x k fs ks Hx _ IH]; constructor; auto.
  destruct x, k; cbn in *; try tauto.
Qed.
Lemma node_allty n nd : In n ns -> h n = Some nd -> allty nd.
Proof.
  intros Hn Hh. destruct (node_of n Hn) as (nd' & Hh' & Hf).
  assert (nd' = nd) by congruence. subst. eapply fits_allty; eauto.
Qed.
End Graph.

Lemma pg_mid_mono h rmx ty rec rec' p out st s1 r :
  (forall nd o r, rec nd o = Some r -> rec' nd o = Some r) ->
  pg_mid h rmx ty rec p out st s1 = Some r -> pg_mid h rmx ty rec' p out st s1 = Some r.
Proof.
  intros H E. unfold pg_mid in *. destruct (_ =? _)%N; [exact E|]. destruct p as [n|]; [|exact E].
  destruct (lookup n _); [exact E|]. destruct (h n); [|discriminate]. now apply H.
Qed.
Lemma pg_mono h rmx : forall fuel,
  (forall ty p o r, pg h rmx fuel ty p o = Some r -> pg h rmx (S fuel) ty p o = Some r) /\
  (forall fs o r, pg_fields h rmx fuel fs o = Some r -> pg_fields h rmx (S fuel) fs o = Some r) /\
  (forall ty o r, pg_drain h rmx fuel ty o = Some r -> pg_drain h rmx (S fuel) ty o = Some r).
Proof.
  induction fuel as [|f (IH1 & IH2 & IH3)]; [repeat split; intros; discriminate|].
  split; [|split].
  - intros ty p [out st] r H. rewrite pg_eq in H. rewrite pg_eq.
    set (s1 := mk_gp _ _ _) in *. set (out1 := if (gp_level (st ty) =? 0)%N then out ++ put32 rmx else out) in *.
    destruct (pg_mid h rmx ty (pg_fields h rmx f) p out1 st s1) as [o|] eqn:E; [|discriminate].
    assert (E' : pg_mid h rmx ty (pg_fields h rmx (S f)) p out1 st s1 = Some o).
    { eapply pg_mid_mono; [|exact E]. exact IH2. }
    rewrite E'. clear E E'. clearbody s1 out1. destruct o as [o1 st1]. cbn [pg_post] in *.
    destruct (_ =? 0)%N; [now apply IH3|exact H].
  - intros fs o r H. rewrite pg_fields_eq in H. rewrite pg_fields_eq.
    destruct fs as [|[b|t p] fs]; [exact H|now apply IH2|].
    destruct (pg h rmx f t p o) as [o1|] eqn:E; [|discriminate].
    apply IH1 in E. rewrite E. now apply IH2.
  - intros ty [out st] r H. rewrite pg_drain_eq in H. rewrite pg_drain_eq.
    destruct (gp_restart (st ty)) as [|p rs]; [exact H|].
    destruct (pg h rmx f ty p _) as [o1|] eqn:E; [|discriminate].
    apply IH1 in E. rewrite E. now apply IH3.
Qed.
Lemma pg_mono_le h rmx f g : (f <= g)%nat ->
  (forall ty p o r, pg h rmx f ty p o = Some r -> pg h rmx g ty p o = Some r) /\
  (forall fs o r, pg_fields h rmx f fs o = Some r -> pg_fields h rmx g fs o = Some r) /\
  (forall ty o r, pg_drain h rmx f ty o = Some r -> pg_drain h rmx g ty o = Some r).
Proof.
  induction 1 as [|g H (I1 & I2 & I3)]; [auto|].
  split; [|split]; intros; apply pg_mono; auto.
Qed.

Section Term.
Variable h : heap.
Variable rmx : N.
Variable ns : list nat.
Variable ty : nat.
Variable layout : nat -> list gkind.
Hypothesis HG : graph_ok h ns ty layout.
Notation allty := (allty ns ty).

Definition gok (m : list (nat * N)) : Prop := NoDup (map fst m) /\ forall n, In n (map fst m) -> In n ns.
Lemma gok_len m : gok m -> (length m <= length ns)%nat.
Proof. intros [H1 H2]. rewrite <- (map_length fst m). apply NoDup_incl_length; auto. Qed.
Lemma gok_new m n id : gok m -> In n ns -> lookup n m = None -> gok ((n, id) :: m).
Proof.
  intros [H1 H2] Hn HL. split; cbn [map fst].
  - constructor; auto. now apply lookup_None.
  - intros k [<-|K]; auto.
Qed.

Definition FT (u : nat) : Prop :=
  forall fs m R L out sg, gok m -> (length ns - length m <= u)%nat -> Forall (ptr_in ns) R ->
  sg ty = mk_gp m R L -> (1 <= L <= len m)%N -> allty fs ->
  exists fuel out' sg' d R', pg_fields h rmx fuel fs (out, sg) = Some (out', sg') /\
    sg' ty = mk_gp (d ++ m) R' L /\ gok (d ++ m) /\ Forall (ptr_in ns) R'.
Definition IT (u : nat) : Prop :=
  forall p m R L out sg, gok m -> (length ns - length m <= u)%nat -> Forall (ptr_in ns) R ->
  sg ty = mk_gp m R L -> (1 <= L <= len m)%N -> ptr_in ns p ->
  exists fuel out' sg' d R', pg h rmx fuel ty p (out, sg) = Some (out', sg') /\
    sg' ty = mk_gp (d ++ m) R' L /\ gok (d ++ m) /\ Forall (ptr_in ns) R'.

Lemma len_nat A (l : list A) : len l = N.of_nat (length l).
Proof. reflexivity. Qed.

Lemma mid_term m R L p out sg :
  (forall u, (u < length ns - length m)%nat -> FT u) ->
  gok m -> Forall (ptr_in ns) R -> (1 <= L <= len m + 1)%N -> ptr_in ns p ->
  exists fuel out' sg' d R', pg_mid h rmx ty (pg_fields h rmx fuel) p out sg (mk_gp m R L) = Some (out', sg') /\
    sg' ty = mk_gp (d ++ m) R' L /\ gok (d ++ m) /\ Forall (ptr_in ns) R' /\
    (L <> rmx -> d = [] -> R' = R).
Proof.
  intros IH Hm HR HL Hp. unfold pg_mid. cbn [gp_level gp_map gp_restart].
  destruct (N.eqb_spec L rmx) as [E|E].
  { exists 0%nat. eexists _, _, [], (p :: R). split; [reflexivity|]. rewrite upd_ty_same. repeat split; auto; try apply Hm. congruence. }
  destruct p as [n|].
  2:{ exists 0%nat. eexists _, _, [], R. split; [reflexivity|]. rewrite upd_ty_same. repeat split; auto; apply Hm. }
  destruct (lookup n m) as [id|] eqn:LK.
  { exists 0%nat. eexists _, _, [], R. split; [reflexivity|]. rewrite upd_ty_same. repeat split; auto; apply Hm. }
  destruct (node_of h ns ty layout HG n Hp) as (nd & Hn & Hf). rewrite Hn.
  pose proof (gok_new m n (len m + 1) Hm Hp LK) as G1.
  pose proof (gok_len _ G1) as L1. cbn [length] in L1.
  destruct (IH (length ns - S (length m))%nat ltac:(lia) nd ((n, (len m + 1)%N) :: m) R L (out ++ put32 (len m + 1))
     (upd_ty sg ty (mk_gp ((n, (len m + 1)%N) :: m) R L)) G1) as (fuel & o' & sg' & d & R' & A1 & A2 & A3 & A4).
  - cbn [length]. lia.
  - exact HR.
  - now rewrite upd_ty_same.
  - rewrite len_cons. lia.
  - eapply fits_allty; eauto.
  - exists fuel, o', sg', (d ++ [(n, (len m + 1)%N)]), R'. rewrite <- app_assoc. cbn [app].
    repeat split; auto; try apply A3. intros _ X. now apply app_eq_nil in X.
Qed.

Lemma it_ft u : IT u -> FT u.
Proof.
  intros HI fs. induction fs as [|x fs IH]; intros m R L out sg Hm Hu HR Hg HL Ha.
  { exists 1%nat. eexists _, _, [], R. split; [reflexivity|]. repeat split; auto; apply Hm. }
  inversion Ha as [|x' fs' Hx Ha']; subst. destruct x as [b|t p].
  - destruct (IH m R L (out ++ b) sg) as (f & o' & sg' & d & R' & A1 & A2); auto.
    exists (S f), o', sg', d, R'. split; [exact A1|exact A2].
  - destruct Hx as [-> Hp].
    destruct (HI p m R L out sg) as (f1 & o1 & sg1 & d1 & R1 & A1 & A2 & A3 & A4); auto.
    destruct (IH (d1 ++ m) R1 L o1 sg1) as (f2 & o2 & sg2 & d2 & R2 & B1 & B2 & B3 & B4); auto.
    { rewrite app_length. lia. }
    { rewrite len_app. lia. }
    exists (S (f1 + f2)), o2, sg2, (d2 ++ d1), R2. rewrite <- app_assoc. split; [|auto].
    rewrite pg_fields_eq.
    rewrite (proj1 (pg_mono_le h rmx f1 (f1 + f2) ltac:(lia)) _ _ _ _ A1).
    now apply (proj1 (proj2 (pg_mono_le h rmx f2 (f1 + f2) ltac:(lia)))).
Qed.
Lemma it_all u : IT u.
Proof.
  induction u as [u IHu] using lt_wf_ind. intros p m R L out sg Hm Hu HR Hg HL Hp.
  pose proof (gok_len _ Hm) as LE.
  destruct (mid_term m R (L + 1) p out sg) as (f & o1 & sg1 & d & R' & A1 & A2 & A3 & A4 & _); auto; try lia.
  { intros v Hv. apply it_ft, IHu. lia. }
  exists (S f). eexists _, _, d, R'. rewrite pg_eq, Hg. cbn [gp_level gp_map gp_restart].
  rewrite (lvl_up h ns ty layout HG) by (rewrite len_nat in *; lia).
  destruct (N.eqb_spec L 0); [lia|]. rewrite A1. cbn [pg_post]. rewrite A2. cbn [gp_level gp_map gp_restart].
  rewrite (lvl_down h ns ty layout HG) by (rewrite len_nat in *; lia).
  destruct (N.eqb_spec L 0); [lia|]. split; [reflexivity|]. rewrite upd_ty_same. auto.
Qed.

Hypothesis Hrm1 : rmx <> 1%N.
Definition DT m R : Prop := forall out sg, sg ty = mk_gp m R 0 ->
  exists fuel out' sg', pg_drain h rmx fuel ty (out, sg) = Some (out', sg') /\ sg' ty = mk_gp [] [] 0.

Lemma top_term m R p : gok m -> Forall (ptr_in ns) R -> ptr_in ns p -> DT m R ->
  (forall m' R', gok m' -> (length m < length m')%nat -> Forall (ptr_in ns) R' -> DT m' R') ->
  forall out sg, sg ty = mk_gp m R 0 ->
  exists fuel out' sg', pg h rmx fuel ty p (out, sg) = Some (out', sg') /\ sg' ty = mk_gp [] [] 0.
Proof.
  intros Hm HR Hp D1 D2 out sg Hg.
  destruct (mid_term m R 1 p (out ++ put32 rmx) sg) as (f & o1 & sg1 & d & R' & A1 & A2 & A3 & A4 & A5); auto; try lia.
  { intros v _. apply it_ft, it_all. }
  assert (D : DT (d ++ m) R').
  { destruct d as [|x d]; [rewrite A5 by auto; exact D1|].
    apply D2; auto. rewrite app_length. cbn. lia. }
  destruct (D o1 (upd_ty sg1 ty (mk_gp (d ++ m) R' 0))) as (f2 & o2 & sg2 & B1 & B2).
  { now rewrite upd_ty_same. }
  exists (S (f + f2)), o2, sg2. split; [|exact B2].
  rewrite pg_eq, Hg. cbn [gp_level gp_map gp_restart N.eqb].
  replace ((0 + 1) mod 2^32)%N with 1%N by reflexivity.
  assert (A1' : pg_mid h rmx ty (pg_fields h rmx (f + f2)) p (out ++ put32 rmx) sg (mk_gp m R 1) = Some (o1, sg1)).
  { eapply pg_mid_mono; [|exact A1]. apply (proj1 (proj2 (pg_mono_le h rmx f (f + f2) ltac:(lia)))). }
  rewrite A1'. cbn [pg_post]. rewrite A2. cbn [gp_level gp_map gp_restart].
  replace ((1 + (2 ^ 32 - 1)) mod 2^32)%N with 0%N by reflexivity. cbn [N.eqb].
  now apply (proj2 (proj2 (pg_mono_le h rmx f2 (f + f2) ltac:(lia)))).
Qed.

Lemma drain_term : forall u m, (length ns - length m <= u)%nat -> gok m ->
  forall R, Forall (ptr_in ns) R -> DT m R.
Proof.
  induction u as [u IHu] using lt_wf_ind. intros m Hu Hm R. induction R as [|p R IHR]; intros HR out sg Hg.
  - exists 1%nat. eexists _, _. rewrite pg_drain_eq, Hg. cbn. split; [reflexivity|]. now rewrite upd_ty_same.
  - inversion HR; subst.
    destruct (top_term m R p Hm) with (out := out) (sg := upd_ty sg ty (mk_gp m R 0))
      as (f & o1 & sg1 & A1 & A2); auto.
    + intros m' R' G' L' HR'. pose proof (gok_len _ G').
      apply (IHu (length ns - length m')%nat); auto. lia.
    + now rewrite upd_ty_same.
    + exists (S (S f)), o1. eexists. rewrite pg_drain_eq, Hg. cbn [gp_level gp_map gp_restart].
      rewrite (proj1 (pg_mono_le h rmx f (S f) ltac:(lia)) _ _ _ _ A1).
      rewrite pg_drain_eq, A2. cbn [gp_level gp_map gp_restart]. split; [reflexivity|].
      now rewrite upd_ty_same.
Qed.

Lemma pack_terminates p : ptr_in ns p ->
  exists fuel out sg, pg h rmx fuel ty p ([], fun _ => mk_gp [] [] 0) = Some (out, sg).
Proof.
  intro Hp. destruct (top_term [] [] p) with (out := @nil ascii) (sg := fun _ : nat => mk_gp [] [] 0)
    as (f & o & sg & A & _); auto.
  - split; [constructor|intros n []].
  - apply drain_term with (u := length ns); auto; [lia|]. split; [constructor|intros n []].
  - intros m' R' G' _ HR'. apply drain_term with (u := length ns); auto. lia.
  - eauto.
Qed.
End Term.

Lemma nth_error_ext A (l l' : list A) : (forall j, nth_error l j = nth_error l' j) -> l = l'.
Proof.
  revert l'. induction l as [|x l IH]; intros [|y l'] H; auto.
  - specialize (H 0%nat). discriminate.
  - specialize (H 0%nat). discriminate.
  - f_equal; [specialize (H 0%nat); cbn in H; congruence|]. apply IH. intro j. apply (H (S j)).
Qed.

Lemma rel_iso h ns ty layout hp0 root m e :
  graph_ok h ns ty layout -> ptr_in ns root ->
  Rel h ns ty hp0 root m [] (fun _ => False) e ->
  iso h root (u_heap e) (u_root e) (length hp0).
Proof.
  intros HG Hp HR. pose proof (r_num _ _ _ _ _ _ _ _ _ HR) as NUM.
  pose proof (r_nd _ _ _ _ _ _ _ _ _ HR) as ND.
  assert (OK : forall sl x, src h ty hp0 root m sl x -> okslot ty hp0 e m sl x).
  { intros sl x Hs. destruct (r_ok _ _ _ _ _ _ _ _ _ HR sl x Hs) as [[]|[[]|A]]; auto. }
  pose (f := fun n => match lookup n m with Some id => addr hp0 id | None => 0%nat end).
  assert (F : forall n id, In (n, id) m -> f n = addr hp0 id).
  { intros n id I1. unfold f. now rewrite (lookup_In_NoDup _ _ _ ND I1). }
  clearbody f.
  assert (DOM : forall n, reach h root n -> exists id, In (n, id) m).
  { induction 1 as [n E|n nd t k _ (id & I1) Hn Hin].
    - destruct (OK SRoot (FPtr ty root) eq_refl) as (y & V & K). cbn in V. injection V as <-.
      destruct K as [_ K]. rewrite E in K. cbn in K. destruct (u_root e); [|tauto].
      destruct K as (id & I1 & _). eauto.
    - apply In_nth_error in Hin. destruct Hin as [j Hj].
      destruct (OK (SField (addr hp0 id) j) (FPtr t (Some k))) as (y & V & K).
      { exists n, id, nd. auto. }
      destruct y as [|t' [q|]]; cbn in K; try tauto. destruct K as (_ & id' & I2 & _). eauto. }
  exists f. split; [|split; [|split]].
  - intros a b Ra Rb E. destruct (DOM a Ra) as (i & Ia). destruct (DOM b Rb) as (k & Ib).
    rewrite (F _ _ Ia), (F _ _ Ib) in E.
    pose proof (numbered_bound ty layout _ _ _ NUM Ia). pose proof (numbered_bound ty layout _ _ _ NUM Ib).
    assert (i = k) by (unfold addr in E; lia). subst. eapply numbered_inj; eauto.
  - destruct (OK SRoot (FPtr ty root) eq_refl) as (y & V & K). cbn in V. injection V as <-.
    destruct K as [_ K]. destruct root as [n|], (u_root e) as [a|]; cbn [pok] in K; try tauto; cbn [option_map]; auto.
    destruct K as (id & I1 & ->). now rewrite (F _ _ I1).
  - intros n Rn. destruct (DOM n Rn) as (id & I1). rewrite (F _ _ I1).
    pose proof (numbered_bound ty layout _ _ _ NUM I1). unfold addr. lia.
  - intros n nd Rn Hn. destruct (DOM n Rn) as (id & I1). rewrite (F _ _ I1).
    destruct (r_shape _ _ _ _ _ _ _ _ _ HR _ _ _ I1 Hn) as (nd' & N1 & N2). rewrite N1. f_equal.
    apply nth_error_ext. intro j. rewrite nth_error_map.
    destruct (nth_error nd j) as [x|] eqn:Ej; cbn [option_map].
    + destruct (OK (SField (addr hp0 id) j) x) as (y & V & K).
      { exists n, id, nd. auto. }
      cbn [value] in V. rewrite N1 in V. rewrite V. f_equal.
      destruct x as [b|t p], y as [c|t' q]; cbn [fok] in K; try tauto; [now subst|].
      destruct K as [<- K]. cbn [rename]. f_equal.
      destruct p as [k|], q as [a|]; cbn [pok] in K; try tauto; cbn [option_map]; auto.
      destruct K as (i2 & I2 & ->). now rewrite (F _ _ I2).
    + apply nth_error_None. apply nth_error_None in Ej. lia.
Qed.

Lemma rel_init h ns ty hp0 root old :
  Rel h ns ty hp0 root [] [] (fun s => s = SRoot) (mk_ue hp0 old gu_init).
Proof.
  constructor; cbn; auto; try tauto.
  - constructor.
  - now rewrite firstn_all.
  - intros sl x Hs. destruct sl as [|a j]; [auto|]. destruct Hs as (n & id & nd & [] & _).
Qed.

Lemma graph_partial h rmx ns ty layout hp0 root fuel out :
  (rmx < 2^32)%N -> graph_ok h ns ty layout -> ptr_in ns root ->
  pack_root h rmx fuel ty root = Some out ->
  forall old, exists hp' root', (forall rm0 rest,
     unpack_root layout fuel ty rm0 (out ++ rest) hp0 old = Some (hp', root', rest)) /\
   firstn (length hp0) hp' = hp0 /\ iso h root hp' root' (length hp0).
Proof.
  intros Hrm HG Hp H old. unfold pack_root in H.
  destruct (pg h rmx fuel ty root ([], gp_init)) as [[o sg]|] eqn:E; [|discriminate].
  injection H as <-.
  destruct (proj1 (top_drain h rmx ns ty layout hp0 root Hrm HG Hp fuel) root SRoot [] [] [] gp_init
     (mk_ue hp0 old gu_init) o sg (rel_init h ns ty hp0 root old) eq_refl eq_refl eq_refl Hp E)
    as (w & d & e' & A1 & A2 & A3 & A4 & A5).
  cbn [app] in A1. subst o.
  exists (u_heap e'), (u_root e'). split.
  - intros rm0 rest. unfold unpack_root. now rewrite A3.
  - split; [apply A4|]. eapply rel_iso; eauto.
Qed.

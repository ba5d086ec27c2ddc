(** * Resolving a query to a sub-object *)
From Verif Require Import Base Base_Proofs SMap Dec Desc_Model Desc_Props Json_Model Rest_Model Rest_Props
  Rest2_Model Rest2_Props RestObj_Model RestObj_Proofs.

Lemma update_same : forall (l : list jval) i x, nth_error l i = Some x -> update l i x = l.
Proof.
  induction l as [|y l IH]; intros [|i] x H; cbn [nth_error update] in *; try discriminate.
  - congruence.
  - now rewrite IH.
Qed.
Lemma upd_set : forall (l : list jval) i e, i < length l -> update l i e = set_nth jval l i e.
Proof.
  unfold set_nth. induction l as [|x l IH]; intros [|i] e H; cbn [length update firstn skipn app] in *; try lia; [reflexivity|].
  now rewrite IH by lia.
Qed.
Lemma put_get : forall p v x, getp v p = Some x -> putp v p x = v.
Proof.
  induction p as [|i p IH]; intros v x H; cbn [getp putp] in *; [congruence|].
  destruct v; try discriminate.
  - destruct (nth_error l i) as [y|] eqn:E; [|discriminate]. rewrite (IH y x H). now rewrite update_same.
  - destruct i as [|[|i]]; try discriminate; now rewrite (IH _ x H).
Qed.

(** the three queries the registry answers itself *)
Definition special (q : list ascii) : Prop := q = bs ".@signature" \/ q = bs ".@list" \/ q = bs ".@type".
Definition specialb (q : list ascii) : bool := beq q (bs ".@signature") || beq q (bs ".@list") || beq q (bs ".@type").
Lemma specialb_ok : forall q, specialb q = true <-> special q.
Proof.
  intros q. unfold specialb, special. rewrite !Bool.orb_true_iff, !beq_eq. tauto.
Qed.

Section Resolve.
Variable klt : nat -> jval -> jval -> bool.
Variable narrow : N -> N.
Variable i2d : Z -> N.
Variable i2f : Z -> N.
Variable d2z : bool -> Z -> N -> option Z.
Variable d2b : N -> bool.
Variable tname : jty -> list ascii.
Variable ename : list (list ascii * Z) -> list ascii.
Notation reg := (reg klt narrow i2d i2f d2z d2b tname ename).
Notation reg_flds := (reg_flds klt narrow i2d i2f d2z d2b tname ename).
Notation run := (run tname).
Notation mapAndProcess := (mapAndProcess tname).
Notation root := (root klt narrow i2d i2f d2z d2b tname).
Notation look := (look klt narrow i2d i2f d2z d2b tname ename).
Notation act_seq := (act_seq klt narrow i2d i2f d2z d2b).
Notation act_ptr := (act_ptr klt narrow i2d i2f d2z d2b).
Notation act_enum := (act_enum narrow i2d tname).
Notation process := (process (entry rent unit) wrapb).

(** the command [tl] on what the entry refers to *)
Definition serve (e : rent) (tl : list ascii) (v : jval) (args : jv) : jval * jr out :=
  match served (EObj e : entry rent unit) tl with
  | ACall _ _ =>
      match getp v (epath e) with
      | Some x => let '(x', r) := eact e x tl args in (putp v (epath e) x', r)
      | None => (v, JUB)
      end
  | AList _ =>
      match getp v (epath e) with
      | Some x => (v, JOk (names (filter (fun k => negb (beq k [])) (elist e x))))
      | None => (v, JUB)
      end
  | AType _ => (v, JOk (OVal TStr (VS (tname (ety e)))))
  | ASignature _ => (v, JOk (OSig (ety e)))
  | _ => (v, JUB)
  end.
Lemma run_served : forall h q e tl v args, process (regs h) q = Some (served (EObj e) tl) ->
  run h v q args = serve e tl v args.
Proof.
  intros h q e tl v args H. unfold run. rewrite H. unfold serve, served.
  repeat destruct (list_eq_dec ascii_dec _ _); reflexivity.
Qed.
(** an answer moved into an object *)
Definition lift (put : jval -> jval) (r : jval * jr out) : jval * jr out := let '(x, o) := r in (put x, o).
Lemma serve_field : forall l i x e tl args, nth_error l i = Some x ->
  serve (ren [i] e) tl (VL l) args = lift (fun y => VL (update l i y)) (serve e tl x args).
Proof.
  intros l i x e tl args H. unfold serve, served. cbn [ren epath eact elist ety app getp putp]. rewrite H.
  repeat destruct (list_eq_dec ascii_dec _ _); cbn [lift]; rewrite ?(update_same l i x H); try reflexivity.
  - destruct (getp x (epath e)); cbn [lift]; now rewrite (update_same l i x H).
  - destruct (getp x (epath e)) as [z|]; cbn [lift]; [|now rewrite (update_same l i x H)].
    destruct (eact e z tl args). reflexivity.
Qed.
Lemma serve_first : forall a b e tl args,
  serve (ren [0] e) tl (VP a b) args = lift (fun y => VP y b) (serve e tl a args).
Proof.
  intros. unfold serve, served. cbn [ren epath eact elist ety app getp putp].
  repeat destruct (list_eq_dec ascii_dec _ _); cbn [lift]; try reflexivity;
  destruct (getp a (epath e)) as [z|]; cbn [lift]; try reflexivity. now destruct (eact e z tl args).
Qed.
Lemma serve_second : forall a b e tl args,
  serve (ren [1] e) tl (VP a b) args = lift (fun y => VP a y) (serve e tl b args).
Proof.
  intros. unfold serve, served. cbn [ren epath eact elist ety app getp putp].
  repeat destruct (list_eq_dec ascii_dec _ _); cbn [lift]; try reflexivity;
  destruct (getp b (epath e)) as [z|]; cbn [lift]; try reflexivity. now destruct (eact e z tl args).
Qed.

(** the entry of the object itself *)
Definition rootent (t : jty) : rent :=
  match t with
  | TEnum ks => mkrent false t [] (act_enum ks) (fun _ => [])
  | TSeq fx t' => mkrent true t [] (act_seq fx t' (mapAndProcess (reg t' [] []))) (fun _ => seq_names)
  | TPtr t' => mkrent true t [] (act_ptr t' (mapAndProcess (reg t' [] [])))
                    (fun v => match v with VPtr _ => keys (reg t' [] []) | _ => [] end)
  | TPair a b => root t [] (reg a [0] (bs ".first") ++ reg b [1] (bs ".second"))
  | TStruct fs => root t [] (reg_flds fs 0 [] [])
  | _ => root t [] []
  end.
Lemma fin_last : forall h (e : rent), fin [] (h ++ [([], OpAdd e)]) None = Some (EObj e).
Proof. intros. rewrite fin_app. reflexivity. Qed.
Lemma look_root : forall t, rwf t -> look t [] = Some (EObj (rootent t)).
Proof.
  intros t W. unfold RestObj_Proofs.look. destruct t; try contradiction; try reflexivity.
  - rewrite reg_pair. rewrite app_assoc. apply fin_last.
  - rewrite reg_struct. apply fin_last.
Qed.
Lemma rootent_path : forall t, epath (rootent t) = [].
Proof. destruct t; reflexivity. Qed.

(** ** Resolution *)
Definition resolved (t : jty) (q s tl : list ascii) (e : rent) : Prop :=
  q = s ++ tl /\ tailp s /\ tailp tl /\ look t s = Some (EObj e) /\
  forall s' tl', q = s' ++ tl' -> tailp s' -> tailp tl' -> length s < length s' -> look t s' = None.
Lemma tailp_prefix : forall a b, tailp (a ++ b) -> tailp a.
Proof. intros [|c a] b [H|[r H]]; [now left|now left|discriminate|]. injection H as -> _. right. eexists. reflexivity. Qed.
Lemma dgoodx : forall c r, c <> "@"%char -> dgood (c :: r).
Proof. intros. right. eauto. Qed.
(** cuts of a query behind the name of the object *)
Lemma cut_name : forall d q p t, cut (d ++ q) p t -> tailp q -> length d <= length p ->
  exists s, p = d ++ s /\ q = s ++ t /\ tailp s /\ tailp t.
Proof.
  intros d q p t (E & Np & Ht) Tq L.
  assert (D : p = d ++ skipn (length d) p).
  { rewrite <- (firstn_skipn (length d) p) at 1. f_equal. assert (F : firstn (length d) (d ++ q) = firstn (length d) (p ++ t)) by now rewrite E.
    rewrite firstn_app, Nat.sub_diag, firstn_all in F. cbn [firstn] in F. rewrite app_nil_r in F.
    rewrite firstn_app in F. replace (length d - length p) with 0 in F by lia. cbn [firstn] in F. now rewrite app_nil_r in F. }
  set (s := skipn (length d) p) in *. exists s. assert (Q : q = s ++ t).
  { rewrite D in E. rewrite <- app_assoc in E. now apply app_inv_head in E. }
  repeat split; auto. subst q. now apply tailp_prefix in Tq.
Qed.
Lemma not_enum_list : forall c r, c <> "@"%char -> c :: r <> bs "@enum.@list".
Proof. intros c r H E. apply H. now injection E. Qed.
Lemma resolve : forall t q, rwf t -> tailp q -> exists s tl e, resolved t q s tl e.
Proof.
  intros t q W Tq. set (d := [dot]). assert (Gd : dgood d) by (now apply dgoodx).
  destruct (process_spec (entry rent unit) wrapb (regs (reg t [] d)) (d ++ q)) as [(p & tl & e & C & Fe & Mx & _)|[Nn _]].
  - now apply not_enum_list.
  - destruct (cut_name d q p tl C Tq) as (s & -> & -> & Ts & Tt).
    { destruct C as (_ & Np & _). destruct p; [congruence|cbn; lia]. }
    rewrite (mfind_at klt narrow i2d i2f d2z d2b tname ename t d s Gd Ts) in Fe.
    destruct (look_obj _ _ _ _ _ _ _ _ _ _ _ Fe) as [r ->].
    exists s, tl, r. split; [reflexivity|]. split; [exact Ts|]. split; [exact Tt|]. split; [exact Fe|].
    intros s' tl' E Ts' Tt' L. rewrite <- (mfind_at klt narrow i2d i2f d2z d2b tname ename t d s' Gd Ts').
    apply (Mx (d ++ s') tl'); [|rewrite !app_length; lia]. split; [rewrite E; now rewrite app_assoc|].
    split; [discriminate|exact Tt'].
  - exfalso. assert (H := mfind_at klt narrow i2d i2f d2z d2b tname ename t d [] Gd (or_introl eq_refl)).
    rewrite (look_root t W) in H. rewrite (Nn (d ++ []) q) in H; [discriminate|].
    split; [now rewrite app_nil_r|]. split; [discriminate|exact Tq].
Qed.
Lemma resolved_find : forall t d q s tl e, dgood d -> d ++ q <> bs "@enum.@list" -> tailp q -> d ++ s <> [] -> resolved t q s tl e ->
  process (regs (reg t [] d)) (d ++ q) = Some (served (EObj e) tl).
Proof.
  intros t d q s tl e Gd Nq Tq Ne (E & Ts & Tt & L & Mx).
  apply (C36_longest_prefix (entry rent unit) wrapb (regs (reg t [] d)) (d ++ q) (d ++ s) tl (EObj e) Nq).
  - split; [rewrite E; now rewrite app_assoc|]. split; [exact Ne|exact Tt].
  - now rewrite (mfind_at klt narrow i2d i2f d2z d2b tname ename t d s Gd Ts).
  - intros p' t' C Lp. rewrite app_length in Lp.
    destruct (cut_name d q p' t' C Tq ltac:(lia)) as (s' & -> & Q & Ts' & Tt').
    rewrite (mfind_at klt narrow i2d i2f d2z d2b tname ename t d s' Gd Ts'). apply (Mx s' t'); auto.
    rewrite app_length in Lp. lia.
Qed.
(** an object registered under a name *)
Lemma run_resolved : forall t c d q s tl e v args, c <> "@"%char -> tailp q -> resolved t q s tl e ->
  run (reg t [] (c :: d)) v ((c :: d) ++ q) args = serve e tl v args.
Proof.
  intros t c d q s tl e v args Hc Tq R. apply run_served. apply (resolved_find t (c :: d) q s tl e).
  - now apply dgoodx.
  - now apply not_enum_list.
  - exact Tq.
  - discriminate.
  - exact R.
Qed.
(** an element: mapAndProcess *)
Lemma map_resolved : forall t q s tl e v args, tailp q -> s <> [] -> resolved t q s tl e ->
  mapAndProcess (reg t [] []) v q args = serve e tl v args.
Proof.
  intros t q s tl e v args Tq Ns R. assert (E := proj1 R). unfold mapAndProcess. destruct q as [|c q]; [destruct s; [congruence|discriminate]|].
  assert (Hc : c <> "@"%char) by (destruct Tq as [T|[r T]]; [discriminate|]; injection T as -> _; discriminate).
  apply run_served. apply (resolved_find t [] (c :: q) s tl e); auto; [now left|now apply not_enum_list].
Qed.
Lemma map_root : forall t q e v args, rwf t -> tailp q -> q <> [] -> resolved t q [] q e ->
  mapAndProcess (reg t [] []) v q args =
  if specialb q || ewrap (rootent t) then serve (rootent t) q v args else (v, JErr EOther).
Proof.
  intros t q e v args W Tq Nq (_ & _ & _ & _ & Mx). unfold mapAndProcess. destruct q as [|c q]; [congruence|].
  assert (Hc : c <> "@"%char) by (destruct Tq as [T|[r T]]; [discriminate|]; injection T as -> _; discriminate).
  set (Q := c :: q) in *.
  assert (P := C36_empty_name (entry rent unit) wrapb (regs (reg t [] [])) Q (not_enum_list c q Hc)).
  assert (F0 := mfind_at klt narrow i2d i2f d2z d2b tname ename t [] [] (or_introl eq_refl) (or_introl eq_refl)).
  cbn [app] in F0. rewrite F0, (look_root t W) in P.
  assert (N0 : forall p tl, cut Q p tl -> mfind bcmp p (regs (reg t [] [])) = None).
  { intros p tl C. destruct (cut_name [] Q p tl C Tq ltac:(cbn; lia)) as (s & -> & E & Ts & Tt). cbn [app] in *.
    rewrite <- (app_nil_l s). rewrite (mfind_at klt narrow i2d i2f d2z d2b tname ename t [] s (or_introl eq_refl) Ts).
    apply (Mx s tl); auto. destruct C as (_ & Np & _). destruct s; [congruence|cbn; lia]. }
  specialize (P N0). unfold run. rewrite P. unfold serve, served, specialb. rewrite !beq_dec.
  destruct (list_eq_dec ascii_dec Q (bs ".@signature")); [reflexivity|].
  destruct (list_eq_dec ascii_dec Q (bs ".@list")); [cbn [orb]; rewrite (rootent_path t); reflexivity|].
  destruct (list_eq_dec ascii_dec Q (bs ".@type")); [reflexivity|]. cbn [orb].
  cbn [wrapb]. destruct (ewrap (rootent t)); rewrite ?(rootent_path t); reflexivity.
Qed.
Lemma map_empty : forall t v args, rwf t -> mapAndProcess (reg t [] []) v [] args = eact (rootent t) v [] args.
Proof.
  intros t v args W. unfold mapAndProcess.
  assert (F0 := mfind_at klt narrow i2d i2f d2z d2b tname ename t [] [] (or_introl eq_refl) (or_introl eq_refl)).
  cbn [app] in F0. rewrite F0, (look_root t W), (rootent_path t). cbn [getp putp]. now destruct (eact (rootent t) v [] args).
Qed.
Lemma resolved_root : forall t q tl e, rwf t -> resolved t q [] tl e -> tl = q /\ e = rootent t.
Proof.
  intros t q tl e W (E & _ & _ & L & _). cbn [app] in E. rewrite (look_root t W) in L. split; [congruence|]. now injection L as <-.
Qed.
Lemma tailp_app_nil : forall s tl, tailp (s ++ tl) -> s ++ tl = [] -> s = [] /\ tl = [].
Proof. intros [|c s] tl _ H; [auto|discriminate]. Qed.

(** the members of an object followed by another entry for the object itself *)
Lemma inner_not_found : forall t (members : list (list ascii * op rent unit)) e0 (dead : rent) q v args,
  reg t [] [] = members ++ [([], OpAdd e0)] \/ (members = [] /\ exists e1, reg t [] [] = [([], OpEmplace e1)]) ->
  ewrap dead = false -> tailp q -> q <> [] -> ~ special q ->
  (forall s' tl', q = s' ++ tl' -> tailp s' -> tailp tl' -> 0 < length s' -> look t s' = None) ->
  mapAndProcess (members ++ [([], OpAdd dead)]) v q args = (v, JErr EOther).
Proof.
  intros t members e0 dead q v args Hr Hw Tq Nq Ns Mx. unfold mapAndProcess. destruct q as [|c q]; [congruence|]. set (Q := c :: q) in *.
  assert (Hc : c <> "@"%char) by (destruct Tq as [T|[r T]]; [discriminate|]; injection T as -> _; discriminate).
  assert (P : process (regs (members ++ [([], OpAdd dead)])) Q = Some ANotFound).
  { apply C36_not_found; [now apply not_enum_list|]. split.
    - intros p tl C. destruct (cut_name [] Q p tl C Tq ltac:(cbn; lia)) as (s & -> & E & Ts & Tt). cbn [app] in *.
      assert (Ls : 0 < length s) by (destruct C as (_ & Np & _); destruct s; [congruence|cbn; lia]).
      specialize (Mx s tl E Ts Tt Ls). unfold RestObj_Proofs.look in Mx.
      rewrite fin_regs, fin_app.
      assert (K : forall (x : op rent unit) o, fin s [([], x)] o = o).
      { intros x o. apply fin_skip. intros [H|[]]. cbn [fst] in H. subst s. cbn in Ls. lia. }
      rewrite K. destruct Hr as [Hr|[-> _]]; [|reflexivity]. now rewrite Hr, fin_app, K in Mx.
    - intros e F. rewrite fin_regs, fin_last in F. injection F as <-. split; [exact Hw|].
      unfold special in Ns. tauto. }
  unfold run. now rewrite P.
Qed.
(** Registered under a name, or as an element: the same answer.  Enums ignore what
    follows their name. *)
Theorem run_map : forall t c d q v args, rwf t -> c <> "@"%char -> tailp q ->
  (forall ks, t = TEnum ks -> q = [] \/ special q) ->
  run (reg t [] (c :: d)) v ((c :: d) ++ q) args = mapAndProcess (reg t [] []) v q args.
Proof.
  intros t c d q v args W Hc Tq He. destruct (resolve t q W Tq) as (s & tl & e & R).
  rewrite (run_resolved t c d q s tl e v args Hc Tq R).
  destruct s as [|c' s].
  2:{ symmetry. apply (map_resolved t q (c' :: s) tl e); auto. discriminate. }
  destruct (resolved_root t q tl e W R) as [-> ->]. destruct q as [|cq q].
  { rewrite (map_empty t v args W). unfold serve, served. rewrite (rootent_path t). cbn [getp putp].
    repeat (destruct (list_eq_dec ascii_dec _ _) as [X|_]; [discriminate X|]). now destruct (eact (rootent t) v [] args). }
  rewrite (map_root t (cq :: q) (rootent t) v args W Tq ltac:(discriminate) R).
  destruct (specialb (cq :: q)) eqn:Sp; [reflexivity|]. cbn [orb].
  assert (NS : ~ special (cq :: q)) by (rewrite <- specialb_ok; congruence).
  destruct (ewrap (rootent t)) eqn:Ew; [reflexivity|].
  assert (A : serve (rootent t) (cq :: q) v args = eact (rootent t) v (cq :: q) args).
  { unfold serve, served. rewrite (rootent_path t). cbn [getp putp]. unfold special in NS.
    destruct (list_eq_dec ascii_dec (cq :: q) (bs ".@signature")); [tauto|].
    destruct (list_eq_dec ascii_dec (cq :: q) (bs ".@list")); [tauto|].
    destruct (list_eq_dec ascii_dec (cq :: q) (bs ".@type")); [tauto|].
    now destruct (eact (rootent t) v (cq :: q) args). }
  rewrite A. destruct R as (_ & _ & _ & _ & Mx).
  destruct t; try contradiction; try discriminate Ew; cbn [rootent];
    unfold RestObj_Model.root, root_act, act_obj; cbn [eact].
  1-6: match type of W with rwf ?t => apply (inner_not_found t [] (rootent t)) end;
       [right; split; [reflexivity|eexists; reflexivity]|reflexivity|exact Tq|discriminate|exact NS|exact Mx].
  - destruct (He ks eq_refl) as [H|H]; [discriminate H|contradiction].
  - eapply (inner_not_found (TPair t1 t2)); [left; rewrite reg_pair, app_assoc; reflexivity|reflexivity|exact Tq|discriminate|exact NS|exact Mx].
  - eapply (inner_not_found (TStruct fs)); [left; apply reg_struct|reflexivity|exact Tq|discriminate|exact NS|exact Mx].
Qed.

(** ** One step of a path *)
Lemma app_cut : forall (a b x y : list ascii), a ++ b = x ++ y -> length a <= length x -> exists z, x = a ++ z /\ b = z ++ y.
Proof.
  induction a as [|c a IH]; intros b [|c' x] y E L; cbn [app length] in *; try lia.
  - exists []. auto.
  - exists (c' :: x). auto.
  - injection E as -> E. destruct (IH b x y E ltac:(lia)) as (z & -> & ->). eauto.
Qed.
(** members found under [pre] are those of [t1], moved to [i] *)
Definition under (t t1 : jty) (pre : list ascii) (i : nat) : Prop :=
  tailp pre /\ pre <> [] /\ forall r, tailp r -> look t (pre ++ r) = option_map (rene [i]) (look t1 r).
Lemma resolved_under : forall t t1 pre i q s tl e, under t t1 pre i -> tailp q -> resolved t1 q s tl e ->
  resolved t (pre ++ q) (pre ++ s) tl (ren [i] e).
Proof.
  intros t t1 pre i q s tl e (Tp & Np & U) Tq (E & Ts & Tt & L & Mx).
  split; [rewrite E; now rewrite app_assoc|]. split; [now apply tailp_app|]. split; [exact Tt|].
  split; [rewrite (U s Ts), L; reflexivity|].
  intros s' tl' E' Ts' Tt' Ln. rewrite app_length in Ln. destruct (app_cut pre q s' tl' E' ltac:(lia)) as (z & -> & Q).
  assert (Tz : tailp z) by (rewrite Q in Tq; now apply tailp_prefix in Tq).
  rewrite (U z Tz). rewrite (Mx z tl' Q Tz Tt'); [reflexivity|]. rewrite app_length in Ln. lia.
Qed.
Lemma step_under : forall t t1 pre i c d q v x put args, rwf t1 -> under t t1 pre i -> tailp q -> c <> "@"%char ->
  (forall e tl, serve (ren [i] e) tl v args = lift put (serve e tl x args)) ->
  mapAndProcess (reg t [] []) v (pre ++ q) args = lift put (run (reg t1 [] (c :: d)) x ((c :: d) ++ q) args).
Proof.
  intros t t1 pre i c d q v x put args W U Tq Hc Sv. destruct (resolve t1 q W Tq) as (s & tl & e & R).
  rewrite (run_resolved t1 c d q s tl e x args Hc Tq R).
  rewrite (map_resolved t (pre ++ q) (pre ++ s) tl (ren [i] e)).
  - apply Sv.
  - destruct U as (Tp & _ & _). now apply tailp_app.
  - destruct U as (_ & Np & _). destruct pre; [congruence|discriminate].
  - now apply (resolved_under t t1).
Qed.
Lemma fnth_rwf : forall fs i n t, rwf_flds fs -> fnth fs i = Some (n, t) ->
  dotless n /\ (isbase n = true -> exists bf, t = TStruct bf) /\ rwf t.
Proof.
  induction fs as [|n' t' fs IH]; intros [|i] n t W E; cbn [fnth] in E; try discriminate; destruct W as (D & B & Wt & Wf).
  - injection E as -> ->. auto.
  - now apply (IH i).
Qed.
Lemma step_member : forall fs l i n t1 x c d q args, rwf (TStruct fs) -> fnth fs i = Some (n, t1) -> isbase n = false ->
  nth_error l i = Some x -> tailp q -> c <> "@"%char ->
  mapAndProcess (reg (TStruct fs) [] []) (VL l) (dot :: n ++ q) args =
  lift (fun y => VL (update l i y)) (run (reg t1 [] (c :: d)) x ((c :: d) ++ q) args).
Proof.
  intros fs l i n t1 x c d q args W F B Hx Tq Hc. destruct (fnth_rwf fs i n t1 (proj2 W) F) as (Dn & _ & W1).
  apply (step_under (TStruct fs) t1 (dot :: n) i c d q (VL l) x (fun y => VL (update l i y)) args); auto.
  - split; [right; eexists; reflexivity|]. split; [discriminate|]. intros r Tr.
    assert (L := look_field klt narrow i2d i2f d2z d2b tname ename fs i n t1 n r W F ltac:(unfold answers; now rewrite B) Dn Tr).
    unfold rel in L. rewrite B in L. exact L.
  - intros e tl. now apply serve_field.
Qed.
Lemma step_first : forall a b u w c d q args, rwf a -> rwf b -> tailp q -> c <> "@"%char ->
  mapAndProcess (reg (TPair a b) [] []) (VP u w) (bs ".first" ++ q) args =
  lift (fun y => VP y w) (run (reg a [] (c :: d)) u ((c :: d) ++ q) args).
Proof.
  intros a b u w c d q args Wa Wb Tq Hc.
  apply (step_under (TPair a b) a (bs ".first") 0 c d q (VP u w) u (fun y => VP y w) args); auto.
  - split; [right; eexists; reflexivity|]. split; [discriminate|]. intros r Tr. now apply look_first.
  - intros e tl. now apply serve_first.
Qed.
Lemma step_second : forall a b u w c d q args, rwf a -> rwf b -> tailp q -> c <> "@"%char ->
  mapAndProcess (reg (TPair a b) [] []) (VP u w) (bs ".second" ++ q) args =
  lift (fun y => VP u y) (run (reg b [] (c :: d)) w ((c :: d) ++ q) args).
Proof.
  intros a b u w c d q args Wa Wb Tq Hc.
  apply (step_under (TPair a b) b (bs ".second") 1 c d q (VP u w) w (fun y => VP u y) args); auto.
  - split; [right; eexists; reflexivity|]. split; [discriminate|]. intros r Tr. now apply look_second.
  - intros e tl. now apply serve_second.
Qed.
(** every name of a member is registered *)
Lemma tops_field : forall fs m, In m (tops_flds fs) -> exists i n t, fnth fs i = Some (n, t) /\ answers n t m.
Proof.
  induction fs as [|n t fs IH]; intros m H; cbn [tops_flds] in H; [destruct H|].
  apply in_app_or in H as [H|H].
  - exists 0, n, t. split; [reflexivity|]. unfold answers. destruct (isbase n); [exact H|]. destruct H as [H|[]]. congruence.
  - destruct (IH m H) as (i & n' & t' & F & A). exists (S i), n', t'. auto.
Qed.
Lemma tops_look_all : (forall t, rwf t -> forall m, In m (tops t) -> dotless m /\ exists e, look t (dot :: m) = Some (EObj e)) /\
  (forall ts : tys, True) /\
  (forall fs, rwf_flds fs -> forall i n t, fnth fs i = Some (n, t) -> forall m, In m (tops t) ->
      dotless m /\ exists e, look t (dot :: m) = Some (EObj e)) /\ (forall als : alts, True).
Proof.
  apply jty_mutind; auto; try (intros; contradiction).
  - intros a _ b _ [Wa Wb] m [<-|[<-|[]]]; cbn [tops].
    + split; [apply dotless_first|]. assert (H := look_first klt narrow i2d i2f d2z d2b tname ename a b [] Wa Wb (or_introl eq_refl)).
      rewrite app_nil_r in H. change (dot :: bs "first") with (bs ".first"). rewrite H, (look_root a Wa). eexists. reflexivity.
    + split; [apply dotless_second|]. assert (H := look_second klt narrow i2d i2f d2z d2b tname ename a b [] Wa Wb (or_introl eq_refl)).
      rewrite app_nil_r in H. change (dot :: bs "second") with (bs ".second"). rewrite H, (look_root b Wb). eexists. reflexivity.
  - intros fs IH W m Hm. cbn [tops] in Hm. destruct (tops_field fs m Hm) as (i & n & t & F & A).
    destruct (fnth_rwf fs i n t (proj2 W) F) as (Dn & Bn & Wt).
    assert (Dm : dotless m /\ exists e, look t (rel n m []) = Some (EObj e)).
    { unfold answers, rel in *. destruct (isbase n) eqn:B.
      - rewrite app_nil_r. now apply (IH (proj2 W) i n t F m).
      - subst m. split; [exact Dn|]. exists (rootent t). now apply look_root. }
    destruct Dm as (Dm & e & L). split; [exact Dm|].
    assert (H := look_field klt narrow i2d i2f d2z d2b tname ename fs i n t m [] W F A Dm (or_introl eq_refl)).
    rewrite app_nil_r in H. rewrite H, L. eexists. reflexivity.
  - intros _ i n t H. destruct i; discriminate.
  - intros n t IHt fs IHf (Dn & Bn & Wt & Wf) i n' t' F m Hm. destruct i as [|i]; cbn [fnth] in F.
    + injection F as -> ->. now apply IHt.
    + now apply (IHf Wf i n' t' F).
Qed.
Definition tops_look t : rwf t -> forall m, In m (tops t) -> dotless m /\ exists e, look t (dot :: m) = Some (EObj e) :=
  proj1 tops_look_all t.
Lemma step_base : forall fs l i n t1 x m q args, rwf (TStruct fs) -> fnth fs i = Some (n, t1) -> isbase n = true ->
  nth_error l i = Some x -> In m (tops t1) -> tailp q ->
  mapAndProcess (reg (TStruct fs) [] []) (VL l) (dot :: m ++ q) args =
  lift (fun y => VL (update l i y)) (mapAndProcess (reg t1 [] []) x (dot :: m ++ q) args).
Proof.
  intros fs l i n t1 x m q args W F B Hx Hm Tq. destruct (fnth_rwf fs i n t1 (proj2 W) F) as (Dn & _ & W1).
  destruct (tops_look t1 W1 m Hm) as (Dm & e0 & L0).
  assert (TQ : tailp (dot :: m ++ q)) by (right; eexists; reflexivity).
  assert (LK : forall r, tailp r -> look (TStruct fs) (dot :: m ++ r) = option_map (rene [i]) (look t1 (dot :: m ++ r))).
  { intros r Tr. assert (L := look_field klt narrow i2d i2f d2z d2b tname ename fs i n t1 m r W F ltac:(unfold answers; now rewrite B) Dm Tr).
    unfold rel in L. now rewrite B in L. }
  destruct (resolve t1 (dot :: m ++ q) W1 TQ) as (s & tl & e & R). assert (R' := R). destruct R as (E & Ts & Tt & L & Mx).
  assert (Ls : length (dot :: m) <= length s).
  { destruct (Nat.le_gt_cases (length (dot :: m)) (length s)) as [H|H]; [exact H|]. exfalso.
    rewrite (Mx (dot :: m) q) in L0; [discriminate|reflexivity|right; eexists; reflexivity|exact Tq|exact H]. }
  destruct (app_cut (dot :: m) q s tl E Ls) as (z & Ez & Q).
  assert (Tz : tailp z) by (rewrite Q in Tq; now apply tailp_prefix in Tq).
  assert (Ns : s <> []) by (rewrite Ez; discriminate).
  rewrite (map_resolved t1 (dot :: m ++ q) s tl e x args TQ Ns R').
  rewrite (map_resolved (TStruct fs) (dot :: m ++ q) s tl (ren [i] e) (VL l) args TQ Ns).
  - now apply serve_field.
  - split; [exact E|]. split; [exact Ts|]. split; [exact Tt|]. split.
    + rewrite Ez. cbn [app]. rewrite (LK z Tz). change (dot :: m ++ z) with ((dot :: m) ++ z). rewrite <- Ez, L. reflexivity.
    + intros s' tl' E' Ts' Tt' Ln. destruct (app_cut (dot :: m) q s' tl' E' ltac:(lia)) as (z' & Ez' & Q').
      assert (Tz' : tailp z') by (rewrite Q' in Tq; now apply tailp_prefix in Tq).
      assert (N' := Mx s' tl' E' Ts' Tt' Ln). rewrite Ez' in *. cbn [app] in *. rewrite (LK z' Tz'), N'. reflexivity.
Qed.
(** only the empty name is registered for containers and pointers *)
Lemma only_root : forall t q, rwf t -> tailp q -> tops t = [] -> resolved t q [] q (rootent t).
Proof.
  intros t q W Tq Ht. split; [reflexivity|]. split; [now left|]. split; [exact Tq|]. split; [now apply look_root|].
  intros s' tl' E Ts' Tt' L. destruct Ts' as [->|[r ->]]; [cbn in L; lia|].
  unfold RestObj_Proofs.look. apply fin_skip. intros I. apply in_map_iff in I as (p & Ep & Ip).
  assert (H := proj1 (reg_below klt narrow i2d i2f d2z d2b tname ename) t W). rewrite Forall_forall in H. specialize (H p Ip).
  rewrite Ep, Ht in H. destruct H as [H|[H|(n & r' & _ & _ & _ & H)]]; [discriminate|discriminate|destruct H].
Qed.
Lemma step_elem : forall fx t1 l i x q args, rwf t1 -> nth_error l i = Some x -> (N.of_nat i < 2 ^ 31)%N -> tailp q ->
  mapAndProcess (reg (TSeq fx t1) [] []) (VL l) (bs ".@elem." ++ dec (N.of_nat i) ++ q) args =
  lift (fun y => VL (update l i y)) (mapAndProcess (reg t1 [] []) x q args).
Proof.
  intros fx t1 l i x q args W Hx L31 Tq.
  set (Q := bs ".@elem." ++ dec (N.of_nat i) ++ q).
  assert (TQ : tailp Q) by (right; eexists; reflexivity).
  assert (Li : i < length l) by (apply nth_error_Some; congruence).
  assert (EQ : Q = elemq false (dec (N.of_nat i)) q) by reflexivity.
  rewrite (map_root (TSeq fx t1) Q (rootent (TSeq fx t1)) (VL l) args W TQ ltac:(discriminate)).
  2:{ now apply only_root. }
  cbn [rootent ewrap]. rewrite Bool.orb_true_r. unfold serve, served.
  destruct (list_eq_dec ascii_dec Q (bs ".@signature")) as [H|_]; [discriminate H|].
  destruct (list_eq_dec ascii_dec Q (bs ".@list")) as [H|_]; [discriminate H|].
  destruct (list_eq_dec ascii_dec Q (bs ".@type")) as [H|_]; [discriminate H|].
  cbn [rootent epath eact getp putp]. unfold RestObj_Model.act_seq.
  rewrite EQ. rewrite elemq_starts. cbn [negb]. rewrite Bool.andb_false_r. cbn [andb].
  rewrite (C39_elem jval out (dflt t1)) by assumption.
  rewrite (nth_error_nth l i _ Hx).
  destruct (mapAndProcess (reg t1 [] []) x q args) as [x' r]. cbn [lift]. rewrite <- upd_set by exact Li.
  destruct r; reflexivity.
Qed.
Lemma step_target : forall t1 x q args, rwf t1 -> tailp q -> q <> [] -> ~ special q ->
  mapAndProcess (reg (TPtr t1) [] []) (VPtr x) q args = lift VPtr (mapAndProcess (reg t1 [] []) x q args).
Proof.
  intros t1 x q args W Tq Nq Ns.
  rewrite (map_root (TPtr t1) q (rootent (TPtr t1)) (VPtr x) args W Tq Nq).
  2:{ now apply only_root. }
  cbn [rootent ewrap]. rewrite Bool.orb_true_r. unfold serve, served. unfold special in Ns.
  destruct (list_eq_dec ascii_dec q (bs ".@signature")); [tauto|].
  destruct (list_eq_dec ascii_dec q (bs ".@list")); [tauto|].
  destruct (list_eq_dec ascii_dec q (bs ".@type")); [tauto|].
  cbn [rootent epath eact getp putp]. unfold RestObj_Model.act_ptr. destruct q as [|c q]; [congruence|].
  now destruct (mapAndProcess (reg t1 [] []) x (c :: q) args).
Qed.
Lemma unpack_seq_vl : forall te fx t1 js v w, unpack klt narrow i2d te (TSeq fx t1) (JArr js) [] v = JOk w -> exists l, w = VL l.
Proof.
  intros te fx t1 js v w H. cbn [unpack] in H. unfold find_or in H. change (json_find (JArr js) []) with (FOk (JArr js)) in H. cbn iota in H.
  destruct v; try discriminate. destruct (unseq _ _ _) in H; cbn [jbind] in H; try discriminate. injection H as <-. eauto.
Qed.
Lemma step_target_nil : forall t1 x args, rwf t1 ->
  (forall ks, t1 <> TEnum ks) -> (forall t2, t1 <> TPtr t2) ->
  (forall fx t2, t1 = TSeq fx t2 -> exists l, x = VL l) ->
  mapAndProcess (reg (TPtr t1) [] []) (VPtr x) [] args = lift VPtr (mapAndProcess (reg t1 [] []) x [] args).
Proof.
  intros t1 x args W Ne Np Nl. rewrite (map_empty (TPtr t1)), (map_empty t1) by exact W.
  cbn [rootent eact]. unfold RestObj_Model.act_ptr.
  assert (O : forall inner t2, (let '(x', r) := set_from klt narrow i2d i2f d2z d2b t2 x args in (VPtr x', _ <~ r ;; JOk (OVal t2 x'))) =
     lift VPtr (act_obj klt narrow i2d i2f d2z d2b tname t2 inner x [] args)).
  { intros inner t2. unfold act_obj. now destruct (set_from klt narrow i2d i2f d2z d2b t2 x args). }
  destruct t1; try contradiction; try apply O; cbn [rootent eact].
  - now destruct (Ne ks).
  - destruct (Nl fixed t1 eq_refl) as [l ->]. unfold RestObj_Model.act_seq, seq_process.
    replace (startsWith [] (bs ".@elem")) with false by reflexivity.
    replace (startsWith [] (bs ".@insert")) with false by reflexivity.
    replace (startsWith [] (bs ".@erase")) with false by reflexivity.
    cbn [negb andb orb]. rewrite Bool.andb_false_r. unfold sequenceProcess, set_from.
    assert (CS : forall j, exists l' r, conv klt narrow i2d i2f d2z d2b (TSeq fixed t1) (VL l) j = (VL l', r)).
    { intros j. cbn [conv]. destruct j; try (eexists; eexists; reflexivity).
      destruct (unpack klt narrow i2d false (TSeq fixed t1) (JArr l0) [] (VL l)) as [w|e0|] eqn:U; cbn [done]; try (eexists; eexists; reflexivity).
      destruct (unpack_seq_vl _ _ _ _ _ _ U) as [l' ->]. eexists; eexists; reflexivity. }
    destruct args as [| | | | |[|a args]|]; try reflexivity;
    (match goal with |- context [conv klt narrow i2d i2f d2z d2b (TSeq fixed t1) (VL l) ?j] => destruct (CS j) as (l' & r & Ec) end;
     rewrite Ec; destruct r; reflexivity).
  - now destruct (Np t1).
Qed.
End Resolve.

(** * Lemmas about the registry of an object tree *)
From Verif Require Import Base Base_Proofs SMap Dec Desc_Model Desc_Props Json_Model Rest_Model Rest_Props
  Rest2_Model Rest2_Props RestObj_Model.

(** ** Histories *)
Section Fin.
Notation op := (op rent unit).
Notation entry := (entry rent unit).
Notation hist := (list (list ascii * op)).
(** the entry found under [k] after the registrations [h], starting from [o] *)
Definition fstep (k : list ascii) (o : option entry) (p : list ascii * op) : option entry :=
  if list_eq_dec ascii_dec (fst p) k then add1 rent unit unit_dec o (snd p) else o.
Definition fin (k : list ascii) (h : hist) (o : option entry) : option entry := fold_left (fstep k) h o.

Lemma add1_some : forall o (x : op), exists e, add1 rent unit unit_dec o x = Some e.
Proof.
  intros o [x|f|x]; cbn [add1]; [eauto| |destruct o; eauto].
  destruct o as [[?|g|fs]|]; eauto. destruct (unit_dec (snd g) (snd f)); eauto.
Qed.
Lemma fin_adds : forall k h m, mfind bcmp k (adds rent unit unit_dec h m) = fin k h (mfind bcmp k m).
Proof.
  intros k h. unfold adds, fin. induction h as [|p h IH]; intros m; cbn [fold_left]; [reflexivity|].
  rewrite IH. f_equal. unfold fstep, add. destruct (add1_some (mfind bcmp (fst p) m) (snd p)) as [e He].
  destruct (list_eq_dec ascii_dec (fst p) k) as [E|N0].
  - subst k. rewrite He. apply (mfind_mset_same bcmp bcmp_eq).
  - rewrite He. apply (mfind_mset_other bcmp bcmp_eq). congruence.
Qed.
Lemma fin_regs : forall k h, mfind bcmp k (regs h) = fin k h None.
Proof. intros. unfold regs. now rewrite fin_adds. Qed.
Lemma fin_app : forall k h1 h2 o, fin k (h1 ++ h2) o = fin k h2 (fin k h1 o).
Proof. intros. apply fold_left_app. Qed.
Lemma fin_skip : forall k h o, ~ In k (map fst h) -> fin k h o = o.
Proof.
  intros k h. unfold fin. induction h as [|p h IH]; intros o H; cbn [fold_left]; [reflexivity|].
  cbn [map In] in H. rewrite IH by tauto. unfold fstep.
  destruct (list_eq_dec ascii_dec (fst p) k); [exfalso; tauto|reflexivity].
Qed.
Definition noFun (h : hist) : Prop := Forall (fun p => match snd p with OpAddFun _ => False | _ => True end) h.
Definition opent (x : op) : option rent := match x with OpAdd e | OpEmplace e => Some e | OpAddFun _ => None end.
Lemma fin_in : forall k h o e, noFun h -> fin k h o = Some (EObj e) ->
  (exists x, In (k, x) h /\ opent x = Some e) \/ o = Some (EObj e).
Proof.
  intros k h. unfold fin. induction h as [|[k' x] h IH]; intros o e N0 H; cbn [fold_left] in H; [now right|].
  apply Forall_cons_iff in N0 as [Nx N0]. destruct (IH _ _ N0 H) as [(x' & I & E)|E].
  - left. exists x'. split; [now right|exact E].
  - unfold fstep in E. cbn [fst snd] in *. destruct (list_eq_dec ascii_dec k' k) as [->|_]; [|now right].
    destruct x as [x|f|x]; [| contradiction |]; cbn [add1] in E.
    + injection E as ->. left. eexists. split; [now left|reflexivity].
    + destruct o as [o|]; [now right|]. injection E as ->. left. eexists. split; [now left|reflexivity].
Qed.
Lemma fin_obj : forall k h o e, noFun h -> (forall e', o = Some e' -> exists r, e' = EObj r) ->
  fin k h o = Some e -> exists r, e = EObj r.
Proof.
  intros k h. unfold fin. induction h as [|[k' x] h IH]; intros o e N0 Ho H; cbn [fold_left] in H; [eauto|].
  apply Forall_cons_iff in N0 as [Nx N0]. eapply IH; [exact N0| |exact H].
  intros e' He'. unfold fstep in He'. cbn [fst snd] in *. destruct (list_eq_dec ascii_dec k' k); [|eauto].
  destruct x as [x|f|x]; [| contradiction |]; cbn [add1] in He'.
  - injection He' as <-. eauto.
  - destruct o as [o|]; [eauto|]. injection He' as <-. eauto.
Qed.

(** ** Moving a history to another name and place *)
Definition ren (pre : list nat) (e : rent) : rent := mkrent (ewrap e) (ety e) (pre ++ epath e) (eact e) (elist e).
Definition renop (pre : list nat) (x : op) : op :=
  match x with OpAdd e => OpAdd (ren pre e) | OpEmplace e => OpEmplace (ren pre e) | OpAddFun f => OpAddFun f end.
Definition enumk (k : list ascii) : bool := prefixb (bs "@enum.") k.
Definition tr (pre : list nat) (d : list ascii) (p : list ascii * op) : list ascii * op :=
  if enumk (fst p) then p else (d ++ fst p, renop pre (snd p)).
Lemma ren_ren : forall p q e, ren p (ren q e) = ren (p ++ q) e.
Proof. intros. unfold ren. cbn. now rewrite app_assoc. Qed.
Lemma ren_nil : forall e, ren [] e = e.
Proof. now intros []. Qed.
Lemma enumk_dot : forall s, enumk (dot :: s) = false.
Proof. reflexivity. Qed.
Lemma enumk_head : forall c s, c <> "@"%char -> enumk (c :: s) = false.
Proof.
  intros c s H. unfold enumk, prefixb. destruct (beq _ _) eqn:E; [|reflexivity]. apply beq_eq in E.
  change (bs "@enum.") with ("@"%char :: bs "enum.") in E. cbn [length firstn] in E. congruence.
Qed.
(** names relative to the object: nothing, or starting with a dot, or an enum name *)
Definition relk (k : list ascii) : Prop := tailp k \/ enumk k = true.
Lemma tailp_enumk : forall k, tailp k -> enumk k = false.
Proof. intros k [->|[r ->]]; reflexivity. Qed.
Lemma tailp_app : forall a b, tailp a -> tailp b -> tailp (a ++ b).
Proof. intros a b [->|[r ->]] H; [exact H|right; eexists; reflexivity]. Qed.
Lemma tr_tr : forall pre d pre' d' p, tailp d' -> relk (fst p) ->
  tr pre d (tr pre' d' p) = tr (pre ++ pre') (d ++ d') p.
Proof.
  intros pre d pre' d' [k x] Hd Hk. unfold tr at 2 3. cbn [fst snd]. destruct (enumk k) eqn:E.
  - unfold tr. cbn [fst]. now rewrite E.
  - unfold tr. cbn [fst snd]. destruct Hk as [Hk|Hk]; [|cbn in Hk; congruence].
    rewrite (tailp_enumk (d' ++ k)) by now apply tailp_app.
    rewrite app_assoc. f_equal. destruct x as [xe|xf|xe]; cbn [renop]; [now rewrite ren_ren|reflexivity|now rewrite ren_ren].
Qed.
Lemma tr_nil : forall p, tr [] [] p = p.
Proof.
  intros [k x]. unfold tr. destruct (enumk _); [reflexivity|]. cbn [fst snd app]. f_equal.
  destruct x; cbn [renop]; now rewrite ?ren_nil.
Qed.
(** names under which an object is registered *)
Definition dgood (d : list ascii) : Prop := d = [] \/ exists c r, d = c :: r /\ c <> "@"%char.
Lemma dgood_app : forall d s, dgood d -> tailp s -> dgood (d ++ s).
Proof.
  intros d s [->|(c & r & -> & H)] Hs.
  - destruct Hs as [->|[r ->]]; [now left|]. right. exists dot, r. split; [reflexivity|discriminate].
  - right. exists c, (r ++ s). auto.
Qed.
Lemma dgood_enumk : forall d s, dgood d -> tailp s -> enumk (d ++ s) = false.
Proof.
  intros d s Hd Hs. destruct (dgood_app d s Hd Hs) as [E|(c & r & E & H)]; rewrite E; [reflexivity|now apply enumk_head].
Qed.
Definition rene (pre : list nat) (e : entry) : entry := match e with EObj x => EObj (ren pre x) | _ => e end.
Lemma fin_tr : forall pre d s h o, dgood d -> tailp s -> noFun h -> Forall (fun p => relk (fst p)) h ->
  fin (d ++ s) (map (tr pre d) h) (option_map (rene pre) o) = option_map (rene pre) (fin s h o).
Proof.
  intros pre d s h o Hd Hs. revert o. unfold fin. induction h as [|[k x] h IH]; intros o Nf Rk; cbn [map fold_left]; [reflexivity|].
  apply Forall_cons_iff in Nf as [Nx Nf]. apply Forall_cons_iff in Rk as [Rx Rk]. cbn [fst snd] in *.
  rewrite <- (IH _ Nf Rk). f_equal. unfold fstep, tr. cbn [fst]. destruct (enumk k) eqn:Ek; cbn [fst snd].
  - destruct (list_eq_dec ascii_dec k (d ++ s)) as [E|_].
    { exfalso. rewrite E, (dgood_enumk d s Hd Hs) in Ek. discriminate. }
    destruct (list_eq_dec ascii_dec k s) as [E|_]; [|reflexivity].
    exfalso. subst k. rewrite (tailp_enumk s Hs) in Ek. discriminate.
  - destruct (list_eq_dec ascii_dec k s) as [->|N0].
    + destruct (list_eq_dec ascii_dec (d ++ s) (d ++ s)); [|congruence].
      destruct x as [xe|xf|xe]; cbn [renop add1]; [reflexivity|contradiction|destruct o; reflexivity].
    + destruct (list_eq_dec ascii_dec (d ++ k) (d ++ s)) as [E|_]; [|reflexivity].
      apply app_inv_head in E. congruence.
Qed.
Lemma fin_tr_none : forall pre d s h, dgood d -> tailp s -> noFun h -> Forall (fun p => relk (fst p)) h ->
  fin (d ++ s) (map (tr pre d) h) None = option_map (rene pre) (fin s h None).
Proof. intros pre d s h Hd Hs Hn Hk. exact (fin_tr pre d s h None Hd Hs Hn Hk). Qed.
End Fin.

(** ** The history of a type *)
Section Reg.
Variable klt : nat -> jval -> jval -> bool.
Variable narrow : N -> N.
Variable i2d : Z -> N.
Variable i2f : Z -> N.
Variable d2z : bool -> Z -> N -> option Z.
Variable d2b : N -> bool.
Variable tname : jty -> list ascii.
Variable ename : list (list ascii * Z) -> list ascii.
Notation reg := (reg klt narrow i2d i2f d2z d2b tname ename).
Notation reg_flds := (reg_flds klt narrow i2d i2f d2z d2b tname ename).
Notation run := (run tname).
Notation mapAndProcess := (mapAndProcess tname).
Notation root := (root klt narrow i2d i2f d2z d2b tname).
Notation root_act := (root_act klt narrow i2d i2f d2z d2b tname).

(** the types that are modelled *)
Definition dotless (n : list ascii) : Prop := ~ In dot n.
(** names of the members of an object, those of its base classes included *)
Fixpoint tops (t : jty) : list (list ascii) :=
  match t with
  | TPair _ _ => [bs "first"; bs "second"]
  | TStruct fs => tops_flds fs
  | _ => []
  end
with tops_flds (fs : flds) : list (list ascii) :=
  match fs with
  | FNil => []
  | FCons n t fs' => (if isbase n then tops t else [n]) ++ tops_flds fs'
  end.
Fixpoint rwf (t : jty) : Prop :=
  match t with
  | TBool | TChar | TInt _ _ _ | TFlt | TDbl | TStr | TEnum _ => True
  | TSeq _ t' | TPtr t' => rwf t'
  | TPair a b => rwf a /\ rwf b
  | TStruct fs => NoDup (tops_flds fs) /\ rwf_flds fs
  | _ => False
  end
with rwf_flds (fs : flds) : Prop :=
  match fs with
  | FNil => True
  | FCons n t fs' => dotless n /\ (isbase n = true -> exists bf, t = TStruct bf) /\ rwf t /\ rwf_flds fs'
  end.

Lemma noFun_app : forall h1 h2 : list (list ascii * op rent unit), noFun (h1 ++ h2) <-> noFun h1 /\ noFun h2.
Proof. intros. apply Forall_app. Qed.
Lemma reg_noFun : (forall t pre d, noFun (reg t pre d)) /\ (forall ts : tys, True) /\
  (forall fs i pre d, noFun (reg_flds fs i pre d)) /\ (forall als : alts, True).
Proof.
  apply jty_mutind; intros; cbn [RestObj_Model.reg RestObj_Model.reg_flds]; auto;
    rewrite ?noFun_app; repeat split; auto; repeat (constructor; cbn; auto).
Qed.
Lemma mname_app : forall d n, mname d n = d ++ mname [] n.
Proof. intros. unfold mname. destruct (isbase n); [now rewrite app_nil_r|reflexivity]. Qed.
Lemma mname_tail : forall n, tailp (mname [] n).
Proof. intros. unfold mname. destruct (isbase n); [now left|right; eexists; reflexivity]. Qed.
Lemma relk_tr : forall pre d p, tailp d -> relk (fst p) -> relk (fst (tr pre d p)).
Proof.
  intros pre d [k x] Hd Hk. unfold tr. cbn [fst]. destruct (enumk k) eqn:E; cbn [fst]; [exact Hk|].
  destruct Hk as [Hk|Hk]; [|cbn in Hk; congruence]. left. now apply tailp_app.
Qed.
(** the history under the name [d] is the history under the empty name, moved *)
Lemma map_tr : forall pre d pre' d' h, tailp d' -> Forall (fun p => relk (fst p)) h ->
  map (tr pre d) (map (tr pre' d') h) = map (tr (pre ++ pre') (d ++ d')) h.
Proof.
  intros pre d pre' d' h Hd Hk. rewrite map_map. apply map_ext_in. intros p Hp. apply tr_tr; [exact Hd|].
  rewrite Forall_forall in Hk. now apply Hk.
Qed.
Lemma relk_map : forall pre d h, tailp d -> Forall (fun p => relk (fst p)) h ->
  Forall (fun p => relk (fst p)) (map (tr pre d) h).
Proof.
  intros pre d h Hd Hk. apply Forall_forall. intros q Hq. apply in_map_iff in Hq as (p & <- & Hp).
  apply relk_tr; [exact Hd|]. rewrite Forall_forall in Hk. now apply Hk.
Qed.
Lemma relk_nil : relk [].
Proof. left. now left. Qed.
Lemma reg_moved : (forall t, (forall pre d, reg t pre d = map (tr pre d) (reg t [] [])) /\
                             Forall (fun p => relk (fst p)) (reg t [] [])) /\
  (forall ts : tys, True) /\
  (forall fs, (forall i pre d, reg_flds fs i pre d = map (tr pre d) (reg_flds fs i [] [])) /\
              (forall i, Forall (fun p => relk (fst p)) (reg_flds fs i [] []))) /\
  (forall als : alts, True).
Proof.
  apply jty_mutind; auto;
    try (intros; split; [intros; cbn [RestObj_Model.reg map]; unfold tr; cbn; unfold ren, RestObj_Model.root; cbn [ewrap ety epath eact elist]; rewrite ?app_nil_r; reflexivity
                        |cbn [RestObj_Model.reg]; first [apply Forall_nil|apply Forall_cons; [apply relk_nil|apply Forall_nil]]]).
  - (* enum *)
    intros ks. split.
    + intros pre d. cbn [RestObj_Model.reg map]. unfold tr. cbn [fst snd].
      replace (enumk []) with false by reflexivity.
      replace (enumk (bs "@enum." ++ ename ks)) with true.
      2:{ symmetry. unfold enumk, prefixb. rewrite firstn_app, Nat.sub_diag, firstn_all, app_nil_r. apply beq_refl. }
      cbn. unfold ren, RestObj_Model.root. cbn [ewrap ety epath eact elist]. rewrite !app_nil_r. reflexivity.
    + cbn [RestObj_Model.reg]. constructor; [apply relk_nil|]. constructor; [|constructor]. right.
      unfold enumk, prefixb. cbn [fst]. rewrite firstn_app, Nat.sub_diag, firstn_all, app_nil_r. apply beq_refl.
  - (* pair *)
    intros a [Ma Ka] b [Mb Kb].
    assert (T1 : tailp (bs ".first")) by (right; eexists; reflexivity).
    assert (T2 : tailp (bs ".second")) by (right; eexists; reflexivity).
    split.
    + intros pre d. cbn [RestObj_Model.reg app]. rewrite !map_app.
      rewrite (Ma (pre ++ [0])), (Mb (pre ++ [1])), (Ma [0]), (Mb [1]). rewrite !map_tr by assumption.
      f_equal. f_equal. unfold tr. cbn. unfold ren, RestObj_Model.root. cbn [ewrap ety epath eact elist]. rewrite !app_nil_r. reflexivity.
    + cbn [RestObj_Model.reg app]. rewrite (Ma [0]), (Mb [1]). rewrite !Forall_app.
      split; [now apply relk_map|]. split; [now apply relk_map|]. constructor; [apply relk_nil|constructor].
  - (* class *)
    intros fs [Mf Kf]. split.
    + intros pre d. cbn [RestObj_Model.reg app]. rewrite map_app. rewrite Mf. f_equal.
      cbn [map]. unfold tr. cbn. unfold ren, RestObj_Model.root. cbn [ewrap ety epath eact elist]. rewrite !app_nil_r. reflexivity.
    + cbn [RestObj_Model.reg app]. rewrite Forall_app. split; [apply Kf|]. constructor; [apply relk_nil|constructor].
  - split; [reflexivity|intros; constructor].
  - intros n t [Mt Kt] fs [Mf Kf]. split.
    + intros i pre d. cbn [RestObj_Model.reg_flds app]. rewrite map_app.
      rewrite (Mt (pre ++ [i])), (Mt [i]). rewrite map_tr by (try apply mname_tail; assumption).
      rewrite <- mname_app. f_equal. apply Mf.
    + intros i. cbn [RestObj_Model.reg_flds app]. rewrite Forall_app. split; [|apply Kf].
      rewrite (Mt [i]). apply relk_map; [apply mname_tail|exact Kt].
Qed.
Definition reg_move t : forall pre d, reg t pre d = map (tr pre d) (reg t [] []) := proj1 (proj1 reg_moved t).
Definition reg_relk t : Forall (fun p => relk (fst p)) (reg t [] []) := proj2 (proj1 reg_moved t).
Definition reg_nofun t pre d : noFun (reg t pre d) := proj1 reg_noFun t pre d.
Definition regf_move fs : forall i pre d, reg_flds fs i pre d = map (tr pre d) (reg_flds fs i [] []) :=
  proj1 (proj1 (proj2 (proj2 reg_moved)) fs).
Definition regf_relk fs : forall i, Forall (fun p => relk (fst p)) (reg_flds fs i [] []) :=
  proj2 (proj1 (proj2 (proj2 reg_moved)) fs).
Definition regf_nofun fs i pre d : noFun (reg_flds fs i pre d) := proj1 (proj2 (proj2 reg_noFun)) fs i pre d.

(** what is found, by the rest of the name *)
Definition look (t : jty) (s : list ascii) : option (entry rent unit) := fin s (reg t [] []) None.
Lemma look_at : forall t pre d s, dgood d -> tailp s ->
  fin (d ++ s) (reg t pre d) None = option_map (rene pre) (look t s).
Proof. intros. rewrite reg_move. apply fin_tr_none; auto using reg_nofun, reg_relk. Qed.
Lemma mfind_at : forall t d s, dgood d -> tailp s -> mfind bcmp (d ++ s) (regs (reg t [] d)) = look t s.
Proof.
  intros t d s Hd Hs. rewrite fin_regs, (look_at t [] d s Hd Hs). destruct (look t s) as [[e|f|fs]|]; cbn; now rewrite ?ren_nil.
Qed.
Lemma look_obj : forall t s e, look t s = Some e -> exists r, e = EObj r.
Proof. intros t s e H. apply (fin_obj s (reg t [] []) None e (reg_nofun t [] [])); [discriminate|exact H]. Qed.

(** names found below the object start with the name of a member *)
Definition below (l : list (list ascii)) (k : list ascii) : Prop :=
  k = [] \/ enumk k = true \/ exists n r, k = dot :: n ++ r /\ dotless n /\ tailp r /\ In n l.
Lemma below_incl : forall l l' k, incl l l' -> below l k -> below l' k.
Proof.
  intros l l' k I [H|[H|(n & r & E & D & T & M)]]; [now left|now right; left|].
  right. right. exists n, r. auto.
Qed.
Lemma below_tr : forall pre n h l, dotless n -> Forall (fun p => relk (fst p)) h -> In n l ->
  Forall (fun p => below l (fst p)) (map (tr pre (dot :: n)) h).
Proof.
  intros pre n h l Dn Hk In0. apply Forall_forall. intros q Hq. apply in_map_iff in Hq as ([k x] & <- & Hp).
  rewrite Forall_forall in Hk. specialize (Hk _ Hp). unfold tr. cbn [fst snd] in *. destruct (enumk k) eqn:E; cbn [fst].
  - right. now left.
  - destruct Hk as [Hk|Hk]; [|congruence]. right. right. exists n, k. auto.
Qed.
Lemma below_id : forall pre h l, Forall (fun p => below l (fst p)) h -> Forall (fun p => below l (fst p)) (map (tr pre []) h).
Proof.
  intros pre h l H. apply Forall_forall. intros q Hq. apply in_map_iff in Hq as ([k x] & <- & Hp).
  rewrite Forall_forall in H. specialize (H _ Hp). unfold tr. cbn [fst snd] in *. now destruct (enumk k).
Qed.
Lemma dotless_first : dotless (bs "first").
Proof. vm_compute. intuition discriminate. Qed.
Lemma dotless_second : dotless (bs "second").
Proof. vm_compute. intuition discriminate. Qed.
Lemma reg_below : (forall t, rwf t -> Forall (fun p => below (tops t) (fst p)) (reg t [] [])) /\ (forall ts : tys, True) /\
  (forall fs, rwf_flds fs -> forall i, Forall (fun p => below (tops_flds fs) (fst p)) (reg_flds fs i [] [])) /\ (forall als : alts, True).
Proof.
  apply jty_mutind; auto; try (intros; apply Forall_nil);
    try (intros; cbn [RestObj_Model.reg]; apply Forall_cons; [now left|apply Forall_nil]).
  - intros ks _. cbn [RestObj_Model.reg]. constructor; [now left|]. constructor; [|constructor]. right. left.
    unfold enumk, prefixb. cbn [fst]. rewrite firstn_app, Nat.sub_diag, firstn_all, app_nil_r. apply beq_refl.
  - intros a Ha b Hb [Wa Wb]. cbn [RestObj_Model.reg app tops]. rewrite (reg_move a [0]), (reg_move b [1]). rewrite !Forall_app.
    split; [|split].
    + apply below_tr with (n := bs "first"); [apply dotless_first|apply reg_relk|now left].
    + apply below_tr with (n := bs "second"); [apply dotless_second|apply reg_relk|right; now left].
    + constructor; [now left|constructor].
  - intros fs Hf [_ Wf]. cbn [RestObj_Model.reg app tops]. rewrite Forall_app. split; [now apply Hf|]. constructor; [now left|constructor].
  - intros n t Ht fs Hf (Dn & Bn & Wt & Wf) i. cbn [RestObj_Model.reg_flds app tops_flds]. rewrite (reg_move t [i]).
    rewrite Forall_app. split.
    + unfold mname. destruct (isbase n) eqn:B.
      * apply below_id. eapply Forall_impl; [|now apply Ht]. intros p. apply below_incl. now apply incl_appl.
      * cbn [app]. apply below_tr; [exact Dn|apply reg_relk|now left].
    + eapply Forall_impl; [|now apply Hf]. intros p. apply below_incl. now apply incl_appr.
Qed.
Lemma dotless_cut : forall n r m r', dotless n -> tailp r -> dotless m -> tailp r' -> n ++ r = m ++ r' -> n = m /\ r = r'.
Proof.
  unfold dotless. induction n as [|c n IH]; intros r [|c' m] r' Dn Tr Dm Tr' E; cbn [app] in E.
  - auto.
  - exfalso. destruct Tr as [->|[x ->]]; [discriminate|]. injection E as <- _. apply Dm. now left.
  - exfalso. destruct Tr' as [->|[x ->]]; [discriminate|]. injection E as -> _. apply Dn. now left.
  - injection E as <- E. destruct (IH r m r') as [-> ->]; auto; intros H; [apply Dn|apply Dm]; now right.
Qed.
Lemma below_not : forall l n r h, dotless n -> tailp r -> ~ In n l -> Forall (fun p : list ascii * op rent unit => below l (fst p)) h ->
  ~ In (dot :: n ++ r) (map fst h).
Proof.
  intros l n r h Dn Tr Nn H I. apply in_map_iff in I as (p & E & Ip). rewrite Forall_forall in H. specialize (H p Ip).
  rewrite E in H. destruct H as [H|[H|(m & r' & H & Dm & Tr' & Im)]]; [discriminate|discriminate|].
  injection H as H. destruct (dotless_cut n r m r' Dn Tr Dm Tr' H) as [-> _]. contradiction.
Qed.

(** ** Members *)
(** the i-th field *)
Fixpoint fnth (fs : flds) (i : nat) : option (list ascii * jty) :=
  match fs, i with
  | FNil, _ => None
  | FCons n t _, O => Some (n, t)
  | FCons _ _ fs', S i' => fnth fs' i'
  end.
(** the names a field answers to *)
Definition answers (n : list ascii) (t : jty) (m : list ascii) : Prop :=
  if isbase n then In m (tops t) else m = n.
Lemma answers_in : forall fs i n t m, fnth fs i = Some (n, t) -> answers n t m -> In m (tops_flds fs).
Proof.
  induction fs as [|n' t' fs IH]; intros [|i] n t m E A; cbn [fnth] in E; try discriminate; cbn [tops_flds]; apply in_or_app.
  - injection E as -> ->. left. unfold answers in A. destruct (isbase n); [exact A|now left].
  - right. now apply IH with (i := i) (n := n) (t := t).
Qed.
Lemma nodup_app : forall (a b : list (list ascii)) x, NoDup (a ++ b) -> In x a -> In x b -> False.
Proof.
  induction a as [|y a IH]; intros b x H Ia Ib; [destruct Ia|]. cbn [app] in H. apply NoDup_cons_iff in H as [Hn H].
  destruct Ia as [->|Ia]; [apply Hn, in_or_app; now right|]. now apply (IH b x).
Qed.
Lemma nodup_r : forall (a b : list (list ascii)), NoDup (a ++ b) -> NoDup b.
Proof. induction a as [|y a IH]; intros b H; [exact H|]. apply IH. now apply NoDup_cons_iff in H as [_ H]. Qed.
(** where a name of a field is found *)
Definition rel (n m r : list ascii) : list ascii := if isbase n then dot :: m ++ r else r.
Lemma fin_field : forall fs j, rwf_flds fs -> NoDup (tops_flds fs) -> forall i n t m r,
  fnth fs i = Some (n, t) -> answers n t m -> dotless m -> tailp r ->
  fin (dot :: m ++ r) (reg_flds fs j [] []) None = option_map (rene [j + i]) (look t (rel n m r)).
Proof.
  induction fs as [|n' t' fs IH]; intros j W Nd i n t m r E A Dm Tr; [destruct i; discriminate|].
  destruct W as (Dn & Bn & Wt & Wf). cbn [RestObj_Model.reg_flds app]. rewrite fin_app. cbn [tops_flds] in Nd.
  destruct i as [|i]; cbn [fnth] in E.
  - injection E as -> ->. rewrite Nat.add_0_r.
    replace (dot :: m ++ r) with (mname [] n ++ rel n m r) at 2.
    2:{ unfold mname, rel, answers in *. destruct (isbase n); [reflexivity|now subst]. }
    rewrite look_at.
    + apply fin_skip. eapply below_not; [exact Dm|exact Tr| |apply (proj1 (proj2 (proj2 reg_below)) fs Wf)].
      intros I. unfold answers in A. eapply nodup_app; [exact Nd| |exact I].
      destruct (isbase n); [exact A|now left].
    + rewrite <- (app_nil_l (mname [] n)). apply dgood_app; [now left|apply mname_tail].
    + unfold rel. destruct (isbase n); [right; eexists; reflexivity|exact Tr].
  - rewrite (fin_skip _ (reg t' [j] (mname [] n'))).
    + rewrite (IH (S j) Wf (nodup_r _ _ Nd) i n t m r E A Dm Tr). replace (S j + i) with (j + S i) by lia. reflexivity.
    + assert (Im := answers_in fs i n t m E A). rewrite (reg_move t' [j]).
      eapply below_not with (l := (if isbase n' then tops t' else [n'])); [exact Dm|exact Tr| |].
      * intros I. eapply nodup_app; [exact Nd|exact I|exact Im].
      * unfold mname. destruct (isbase n'); [apply below_id; now apply reg_below|].
        apply below_tr; [exact Dn|apply reg_relk|now left].
Qed.
Lemma reg_struct : forall fs pre d,
  reg (TStruct fs) pre d = reg_flds fs 0 pre d ++ [(d, OpAdd (root (TStruct fs) pre (reg_flds fs 0 [] [])))].
Proof. reflexivity. Qed.
Lemma reg_pair : forall a b pre d,
  reg (TPair a b) pre d = reg a (pre ++ [0]) (d ++ bs ".first") ++ reg b (pre ++ [1]) (d ++ bs ".second") ++
      [(d, OpAdd (root (TPair a b) pre (reg a [0] (bs ".first") ++ reg b [1] (bs ".second"))))].
Proof. reflexivity. Qed.
Lemma look_field : forall fs i n t m r, rwf (TStruct fs) ->
  fnth fs i = Some (n, t) -> answers n t m -> dotless m -> tailp r ->
  look (TStruct fs) (dot :: m ++ r) = option_map (rene [i]) (look t (rel n m r)).
Proof.
  intros fs i n t m r [Nd Wf] E A Dm Tr. unfold look at 1. rewrite reg_struct, fin_app.
  rewrite (fin_field fs 0 Wf Nd i n t m r E A Dm Tr). apply fin_skip. intros [H|[]]. discriminate.
Qed.
Lemma look_first : forall a b r, rwf a -> rwf b -> tailp r ->
  look (TPair a b) (bs ".first" ++ r) = option_map (rene [0]) (look a r).
Proof.
  intros a b r Wa Wb Tr. unfold look at 1. rewrite reg_pair, !fin_app. cbn [app].
  assert (D : dgood (bs ".first")) by (right; eexists; eexists; split; [reflexivity|discriminate]).
  rewrite (look_at a [0] (bs ".first") r D Tr). rewrite (fin_skip _ (reg b [1] (bs ".second"))).
  - apply fin_skip. intros [H|[]]. discriminate.
  - rewrite reg_move. apply (below_not [bs "second"] (bs "first") r); [apply dotless_first|exact Tr| |].
    + intros [H|[]]. discriminate.
    + apply (below_tr [1] (bs "second")); [apply dotless_second|apply reg_relk|now left].
Qed.
Lemma look_second : forall a b r, rwf a -> rwf b -> tailp r ->
  look (TPair a b) (bs ".second" ++ r) = option_map (rene [1]) (look b r).
Proof.
  intros a b r Wa Wb Tr. unfold look at 1. rewrite reg_pair, !fin_app. cbn [app].
  assert (D : dgood (bs ".second")) by (right; eexists; eexists; split; [reflexivity|discriminate]).
  rewrite (fin_skip _ (reg a [0] (bs ".first"))).
  - rewrite (look_at b [1] (bs ".second") r D Tr). apply fin_skip. intros [H|[]]. discriminate.
  - rewrite reg_move. apply (below_not [bs "first"] (bs "second") r); [apply dotless_second|exact Tr| |].
    + intros [H|[]]. discriminate.
    + apply (below_tr [0] (bs "first")); [apply dotless_first|apply reg_relk|now left].
Qed.
End Reg.

(** * REST access to a tree of objects: any query, any arguments *)
From Verif Require Import Base Base_Proofs SMap Dec Desc_Model Desc_Props Json_Model Json_Spec Json_Proofs Json_Proofs2 Json_Props
  Rest_Model Rest_Props Rest2_Model Rest2_Props RestObj_Model RestObj_Proofs RestObj_Proofs2 RestObj_Props.

(** ** C93: objects stay well typed *)
(** objects of a C++ type *)
Fixpoint typed (t : jty) (v : jval) {struct t} : Prop :=
  match t, v with
  | TBool, VB _ | TChar, VC _ | TFlt, VD _ | TDbl, VD _ | TStr, VS _ | TEnum _, VI _ => True
  | TInt _ sgn bits, VI z => (0 < bits)%Z -> inrange sgn bits z
  | TSeq fx t', VL l => Forall (typed t') l /\ match fx with Some n => length l = n | None => True end
  | TPair a b, VP x y => typed a x /\ typed b y
  | TStruct fs, VL l => typed_flds fs l
  | TPtr _, VNul => True
  | TPtr t', VPtr x => typed t' x
  | _, _ => False
  end
with typed_flds (fs : flds) (l : list jval) {struct fs} : Prop :=
  match fs, l with
  | FNil, [] => True
  | FCons _ t fs', x :: l' => typed t x /\ typed_flds fs' l'
  | _, _ => False
  end.

Lemma wrap_inrange : forall sgn bits z, (0 < bits)%Z -> inrange sgn bits (wrap sgn bits z).
Proof.
  intros sgn bits z H. unfold inrange, wrap.
  assert (P : (0 < 2 ^ bits)%Z) by (apply Z.pow_pos_nonneg; lia).
  destruct sgn.
  - assert (E : (2 ^ bits = 2 * 2 ^ (bits - 1))%Z) by (rewrite <- Z.pow_succ_r by lia; f_equal; lia).
    assert (M := Z.mod_pos_bound (z + 2 ^ (bits - 1)) (2 ^ bits) P). lia.
  - now apply Z.mod_pos_bound.
Qed.
Lemma typed_dflt_all : (forall t, rwf t -> typed t (dflt t)) /\ (forall ts : tys, True) /\
  (forall fs, rwf_flds fs -> typed_flds fs (dflt_flds fs)) /\ (forall als : alts, True).
Proof.
  apply jty_mutind; auto; try (intros; contradiction); try (intros; exact Logic.I).
  - intros w sgn bits _. cbn [dflt typed]. intros H. change (inrange sgn bits 0). unfold inrange.
    assert (P := Z.pow_pos_nonneg 2 bits). assert (Q := Z.pow_pos_nonneg 2 (bits - 1)). destruct sgn; lia.
  - intros [n|] t IH W; cbn [dflt typed].
    + split; [|apply repeat_length]. apply Forall_forall. intros x Hx. apply repeat_spec in Hx. subst x. now apply IH.
    + split; constructor.
  - intros a IHa b IHb [Wa Wb]. split; auto.
  - intros fs IH [_ W]. now apply IH.
  - intros n t IHt fs IHf (_ & _ & Wt & Wf). split; auto.
Qed.
Definition typed_dflt t : rwf t -> typed t (dflt t) := proj1 typed_dflt_all t.

Section C93.
Variable klt : nat -> jval -> jval -> bool.
Variable narrow : N -> N.
Variable i2d : Z -> N.
Variable i2f : Z -> N.
Variable d2z : bool -> Z -> N -> option Z.
Variable d2b : N -> bool.
Variable tname : jty -> list ascii.
Variable ename : list (list ascii * Z) -> list ascii.
Notation reg := (reg klt narrow i2d i2f d2z d2b tname ename).
Notation reg_flds := (reg_flds klt narrow i2d i2f d2z d2b tname ename).
Notation run := (run tname).
Notation mapAndProcess := (mapAndProcess tname).
Notation rest := (rest klt narrow i2d i2f d2z d2b tname ename).
Notation conv := (conv klt narrow i2d i2f d2z d2b).
Notation unpack := (unpack klt narrow i2d).
Notation unpack_flds := (unpack_flds klt narrow i2d).

Definition fine (P : jval -> Prop) (r : jr jval) : Prop := match r with JOk v => P v | JErr _ => True | JUB => False end.
Lemma leaf_typed : forall t te x d a, typed t a ->
  match t with TBool | TChar | TInt _ _ _ | TFlt | TDbl | TStr => True | _ => False end ->
  fine (typed t) (unpack_leaf narrow i2d te t x d a).
Proof.
  intros t te x d a H L. unfold unpack_leaf, find_or. destruct (json_find x d) as [y| |]; [|destruct te; exact H || exact Logic.I..].
  destruct t; try contradiction; destruct y; cbn [get_value fine typed]; auto.
  intros B. now apply wrap_inrange.
Qed.
Lemma unseq_typed : forall (f : jv -> jval -> jr jval) (P : jval -> Prop) l vals, (forall y v, P v -> fine P (f y v)) -> Forall P vals ->
  match unseq f l vals with JOk r => Forall P r /\ length r = length vals | JErr _ => True | JUB => False end.
Proof.
  intros f P l. induction l as [|y l IH]; intros vals Hf Hv; cbn [unseq]; [auto|].
  destruct vals as [|v vals]; [auto|]. apply Forall_cons_iff in Hv as [H1 H2].
  assert (F := Hf y v H1). destruct (f y v); cbn [jbind fine] in *; auto.
  specialize (IH vals Hf H2). destruct (unseq f l vals) as [rs| |]; cbn [jbind]; auto. destruct IH as [I1 I2].
  split; [now constructor|]. cbn [length]. now rewrite I2.
Qed.
Lemma unpack_typed_all : (forall t, rwf t -> forall te x d a, typed t a -> fine (typed t) (unpack te t x d a)) /\
  (forall ts : tys, True) /\
  (forall fs, rwf_flds fs -> forall te x d l, typed_flds fs l ->
     match unpack_flds te fs x d l with JOk r => typed_flds fs r | JErr _ => True | JUB => False end) /\
  (forall als : alts, True).
Proof.
  apply jty_mutind; auto; try (intros; contradiction); try (intros; apply leaf_typed; [assumption|exact Logic.I]).
  - intros ks _ te x d a H. cbn [Json_Model.unpack].
    assert (L := leaf_typed TStr te x d (VS []) Logic.I Logic.I).
    destruct (unpack_leaf narrow i2d te TStr x d (VS [])) as [r| |]; cbn [jbind fine] in *; auto.
    destruct r; try contradiction. exact Logic.I.
  - intros fx t IH W te x d a H. cbn [Json_Model.unpack]. unfold find_or.
    destruct (json_find x d) as [y| |]; [|destruct te; exact H || exact Logic.I..].
    destruct y; try (unfold not_array; destruct te; exact H || exact Logic.I).
    destruct a; try contradiction. destruct H as [H1 H2].
    set (vals := match fx with None => _ | Some _ => _ end).
    assert (Hv : Forall (typed t) vals /\ match fx with Some n => length vals = n | None => True end).
    { unfold vals. destruct fx as [n|]; [auto|]. split; [|auto]. apply Forall_forall. intros z Hz.
      assert (I : In z (l0 ++ repeat (dflt t) (length l))).
      { rewrite <- (firstn_skipn (length l) (l0 ++ repeat (dflt t) (length l))). apply in_or_app. now left. }
      apply in_app_or in I as [I|I].
      - rewrite Forall_forall in H1. now apply H1.
      - apply repeat_spec in I. subst z. now apply typed_dflt. }
    destruct Hv as [Hv1 Hv2].
    assert (U := unseq_typed (fun y v => unpack false t y [] v) (typed t) l vals (fun y v => IH W false y [] v) Hv1).
    destruct (unseq _ l vals) as [r| |]; cbn [jbind fine]; auto. destruct U as [U1 U2].
    split; [exact U1|]. destruct fx; [congruence|auto].
  - intros a IHa b IHb [Wa Wb] te x d v H. cbn [Json_Model.unpack]. destruct v; try contradiction. destruct H as [H1 H2].
    assert (A := IHa Wa te x (d ++ first_) v1 H1). destruct (unpack te a x (d ++ first_) v1); cbn [jbind fine] in *; auto.
    assert (B := IHb Wb te x (d ++ second_) v2 H2). destruct (unpack te b x (d ++ second_) v2); cbn [jbind fine] in *; auto.
    split; auto.
  - intros fs IH [_ W] te x d v H. destruct v; try contradiction.
    change (unpack te (TStruct fs) x d (VL l)) with (r <~ unpack_flds te fs x d l ;; JOk (VL r)).
    assert (A := IH W te x d l H). destruct (unpack_flds te fs x d l); cbn [jbind fine]; auto.
  - intros t IH W te x d v H. cbn [Json_Model.unpack].
    assert (A := IH W te x d (dflt t) (typed_dflt t W)). destruct (unpack te t x d (dflt t)); [exact A|exact Logic.I|contradiction].
  - intros n t IHt fs IHf (_ & _ & Wt & Wf) te x d l H. destruct l as [|v l]; [contradiction|].
    change (unpack_flds te (FCons n t fs) x d (v :: l)) with (r <~ unpack te t x (d ++ dot :: n) v ;; rs <~ unpack_flds te fs x d l ;; JOk (r :: rs)).
    destruct H as [H1 H2].
    assert (A := IHt Wt te x (d ++ dot :: n) v H1). destruct (unpack te t x (d ++ dot :: n) v); cbn [jbind fine] in *; auto.
    assert (B := IHf Wf te x d l H2). destruct (unpack_flds te fs x d l); cbn [jbind]; auto. split; auto.
Qed.
Definition unpack_typed t : rwf t -> forall te x d a, typed t a -> fine (typed t) (unpack te t x d a) := proj1 unpack_typed_all t.

(** The numbers that are converted to an integer are in its range: a conversion out of
    range is undefined. *)
Definition okreal (j : jv) : Prop := forall d, j = JReal d -> forall sgn bits, exists z, d2z sgn bits d = Some z /\ inrange sgn bits z.
Definition okargs (j : jv) : Prop := okreal j /\ forall a r, j = JArr (a :: r) -> okreal a.
Definition ok1 (P : jval -> Prop) {A} (p : jval * jr A) : Prop := P (fst p) /\ snd p <> JUB.
Lemma done_ok : forall (P : jval -> Prop) v r, P v -> fine P r -> ok1 P (done v r).
Proof. intros P v r Hv Hr. destruct r; cbn [done fine] in *; try contradiction; split; cbn [fst snd]; auto; discriminate. Qed.
Lemma conv_typed : forall t, rwf t -> forall v j, typed t v -> okreal j -> ok1 (typed t) (conv t v j).
Proof.
  assert (K : forall (P : jval -> Prop) v A (x : A), P v -> ok1 P (v, JOk x)) by (intros; split; [assumption|discriminate]).
  assert (K' : forall (P : jval -> Prop) v A e, P v -> ok1 P (v, JErr e : jr A)) by (intros; split; [assumption|discriminate]).
  induction t; intros W v j H R; try contradiction; cbn [RestObj_Model.conv].
  8:{ destruct j; try (now apply K). apply done_ok; [exact H|]. now apply unpack_typed. }
  10:{ destruct v; try contradiction; [now apply K|]. assert (C := IHt W v j H R). destruct (conv t v j) as [x' r].
       destruct C as [C1 C2]. split; [exact C1|exact C2]. }
  7:{ assert (L := leaf_typed TStr false j [] (VS []) Logic.I Logic.I).
      destruct (unpack_leaf narrow i2d false TStr j [] (VS [])) as [r| |]; cbn [fine] in L; [|now apply K'|contradiction].
      destruct r; try contradiction. now apply K. }
  all: destruct j as [|b|z|d|s|[|a l]|kvs]; try (now apply K); try (apply done_ok; [exact H|now apply unpack_typed]).
  all: try (cbn [assign_int]; now apply K).
  all: try (cbn [assign_int]; now apply K').
  all: try (destruct s as [|? [|? ?]]; cbn [assign_str]; first [now apply K|now apply K']).
  all: cbn [assign_int assign_real]; try (apply K; exact Logic.I).
  all: try (apply K; intros Hb; now apply wrap_inrange).
  - destruct (R d eq_refl true 8%Z) as (z & -> & Hz). now apply K.
  - destruct (R d eq_refl sgn bits) as (z & -> & Hz). apply K. intros _. exact Hz.
  - destruct (R d eq_refl true 8%Z) as (z & -> & Hz). now apply K.
Qed.
Lemma set_from_typed : forall t, rwf t -> forall v j, typed t v -> okargs j -> ok1 (typed t) (set_from klt narrow i2d i2f d2z d2b t v j).
Proof.
  intros t W v j H [R Ra]. unfold set_from. destruct j as [|b|z|d|s|[|a l]|kvs]; try (now apply conv_typed); try (split; [exact H|discriminate]).
  apply conv_typed; auto. now apply (Ra a l).
Qed.

(** ** Entries *)
Definition goodact (t : jty) (a : action) : Prop := forall x rem args, typed t x -> okargs args -> ok1 (typed t) (a x rem args).
Definition goodpath (t t' : jty) (p : list nat) : Prop := forall v, typed t v ->
  exists x, getp v p = Some x /\ typed t' x /\ forall y, typed t' y -> typed t (putp v p y).
Definition constact (t : jty) (e : rent) : Prop := epath e = [] /\ exists o, forall v r a, eact e v r a = (v, JOk o).
Definition good (t : jty) (e : rent) : Prop := constact t e \/ (goodpath t (ety e) (epath e) /\ goodact (ety e) (eact e)).
Definition gooden (t : jty) (e : entry rent unit) : Prop := exists r, e = EObj r /\ good t r.
Definition dead (k : list ascii) (e : entry rent unit) : Prop := k = [] /\ exists r, e = EObj r /\ ewrap r = false /\ epath r = [].
Lemma good_list : forall t e v, good t e -> typed t v -> exists x, getp v (epath e) = Some x.
Proof.
  intros t e v [[E _]|[G _]] H; [rewrite E; exists v; reflexivity|]. destruct (G v H) as (x & Gx & _). eauto.
Qed.
Lemma good_call : forall t e v rem args, good t e -> typed t v -> okargs args ->
  ok1 (typed t) (match getp v (epath e) with
                 | Some x => let '(x', r) := eact e x rem args in (putp v (epath e) x', r)
                 | None => (v, JUB)
                 end).
Proof.
  intros t e v rem args [[E [o Ho]]|[G Ga]] H Ok.
  - rewrite E. cbn [getp putp]. rewrite Ho. split; [exact H|discriminate].
  - destruct (G v H) as (x & Gx & Hx & Hp). rewrite Gx. assert (A := Ga x rem args Hx Ok).
    destruct (eact e x rem args) as [x' r]. destruct A as [A1 A2]. split; [now apply Hp|exact A2].
Qed.
Lemma run_good : forall t h, (forall k e, fin k h None = Some e -> gooden t e \/ dead k e) -> goodact t (run h).
Proof.
  intros t h G v q args H Ok.
  assert (K : forall A (x : A), ok1 (typed t) (v, JOk x)) by (intros; split; [exact H|discriminate]).
  assert (K' : forall e, ok1 (typed t) (v, JErr e : jr out)) by (intros; split; [exact H|discriminate]).
  unfold run. destruct (list_eq_dec ascii_dec q (bs "@enum.@list")) as [->|Nq].
  { unfold process. rewrite (proj2 (beq_eq _ _) eq_refl). destruct (enums _ _); [apply K|apply K']. }
  destruct (process_spec (entry rent unit) wrapb (regs h) q Nq) as [(p & t0 & e & C & Fe & _ & ->)|[_ ->]].
  - rewrite fin_regs in Fe. destruct (G p e Fe) as [(r & -> & Gr)|[-> _]]; [|now destruct C as (_ & C & _)].
    destruct (good_list t r v Gr H) as [x Gx].
    unfold served. destruct (list_eq_dec _ _ _); [apply K|]. destruct (list_eq_dec _ _ _); [rewrite Gx; apply K|].
    destruct (list_eq_dec _ _ _); [apply K|]. now apply good_call.
  - rewrite fin_regs. destruct (fin [] h None) as [e|] eqn:Fe; [|apply K'].
    destruct (G [] e Fe) as [(r & -> & Gr)|(_ & r & -> & Ew & Ep)].
    + destruct (good_list t r v Gr H) as [x Gx]. unfold at_entry.
      repeat match goal with |- context [if ?b then _ else _] => destruct b end;
        try apply K; try apply K'; try (rewrite Gx; apply K); now apply good_call.
    + unfold at_entry. cbn [wrapb]. rewrite Ew. cbn [Nat.eqb negb orb].
      repeat match goal with |- context [if ?b then _ else _] => destruct b end; rewrite ?Ep; cbn [getp]; try apply K; apply K'.
Qed.
Lemma map_good : forall t h, (forall k e, fin k h None = Some e -> gooden t e) -> goodact t (mapAndProcess h).
Proof.
  intros t h G v q args H Ok. unfold mapAndProcess. destruct q as [|c q].
  - rewrite fin_regs. destruct (fin [] h None) as [e|] eqn:Fe; [|split; [exact H|discriminate]].
    destruct (G [] e Fe) as (r & -> & Gr). now apply good_call.
  - apply run_good; auto. intros k e Fe. left. now apply (G k).
Qed.
Definition good1 (t : jty) (p : list ascii * op rent unit) : Prop :=
  exists e, opent (snd p) = Some e /\
    if enumk (fst p) then constact t e else tailp (fst p) /\ goodpath t (ety e) (epath e) /\ goodact (ety e) (eact e).
Definition goodh (t : jty) (h : list (list ascii * op rent unit)) : Prop := Forall (good1 t) h.
Lemma goodh_fin : forall t h, noFun h -> goodh t h -> forall k e, fin k h None = Some e -> gooden t e.
Proof.
  intros t h Nf G k e Fe. destruct (fin_obj k h None e Nf ltac:(discriminate) Fe) as [r ->]. exists r. split; [reflexivity|].
  destruct (fin_in k h None r Nf Fe) as [(x & I & O)|F]; [|discriminate].
  unfold goodh in G. rewrite Forall_forall in G. destruct (G _ I) as (e' & E' & Ge). cbn [fst snd] in *.
  assert (e' = r) by congruence. subst e'. unfold good. destruct (enumk k); [now left|right; tauto].
Qed.
Lemma goodpath_here : forall t, goodpath t t [].
Proof. intros t v H. exists v. cbn [getp putp]. auto. Qed.
Lemma obj_good : forall t inner, rwf t -> noFun inner -> goodh t inner ->
  goodact t (root_act klt narrow i2d i2f d2z d2b tname t inner).
Proof.
  intros t inner W Nf G v rem args H Ok. unfold root_act, act_obj. destruct rem as [|c rem].
  - assert (C := set_from_typed t W v args H Ok). destruct (set_from klt narrow i2d i2f d2z d2b t v args) as [v' r].
    destruct C as [C1 C2]. split; [exact C1|]. cbn [snd] in *. destruct r; [discriminate|discriminate|contradiction].
  - apply (run_good t); auto. intros k e Fe. rewrite fin_app in Fe.
    destruct k as [|ck k].
    + right. split; [reflexivity|]. cbn in Fe. injection Fe as <-. eexists. split; [reflexivity|]. split; reflexivity.
    + left. rewrite fin_skip in Fe by (intros [Q|[]]; discriminate Q). now apply (goodh_fin t inner Nf G (ck :: k)).
Qed.
Lemma good1_here : forall t k e, tailp k -> ety e = t -> epath e = [] -> goodact t (eact e) -> forall x, opent x = Some e -> good1 t (k, x).
Proof.
  intros t k e Tk Et Ep Ga x Hx. exists e. split; [exact Hx|]. cbn [fst]. rewrite (tailp_enumk k Tk), Et, Ep.
  split; [exact Tk|]. split; [apply goodpath_here|exact Ga].
Qed.
Lemma goodh_under : forall t t1 i d h, tailp d -> (forall q t', goodpath t1 t' q -> goodpath t t' (i :: q)) ->
  goodh t1 h -> goodh t (map (tr [i] d) h).
Proof.
  intros t t1 i d h Td U G. unfold goodh in *. rewrite Forall_map. eapply Forall_impl; [|exact G].
  intros [k x] (e & E & Ge). cbn [fst snd] in *. unfold tr. cbn [fst snd]. destruct (enumk k) eqn:Ek.
  - exists e. split; [exact E|]. cbn [fst]. rewrite Ek. exact Ge.
  - destruct Ge as (Tk & Gp & Ga). exists (ren [i] e). split.
    + cbn [snd]. destruct x; cbn [renop opent] in *; congruence.
    + cbn [fst]. rewrite (tailp_enumk _ (tailp_app _ _ Td Tk)). cbn [ren ety epath eact app].
      split; [now apply tailp_app|]. split; [now apply U|exact Ga].
Qed.
Lemma typed_nth : forall fs l i n t, typed_flds fs l -> fnth fs i = Some (n, t) -> exists x, nth_error l i = Some x /\ typed t x /\
  forall y, typed t y -> typed_flds fs (update l i y).
Proof.
  induction fs as [|n' t' fs IH]; intros [|x l] i n t H F; try contradiction; [destruct i; discriminate|].
  destruct H as [H1 H2]. destruct i as [|i]; cbn [fnth nth_error update] in *.
  - injection F as -> ->. exists x. split; [reflexivity|]. split; [exact H1|]. intros y Hy. split; auto.
  - destruct (IH l i n t H2 F) as (x' & E & Hx & Hu). exists x'. split; [exact E|]. split; [exact Hx|]. intros y Hy.
    split; [exact H1|]. now apply Hu.
Qed.
Lemma enum_good : forall ks, goodact (TEnum ks) (act_enum narrow i2d tname ks).
Proof.
  intros ks x rem args H Ok. destruct x; try contradiction. unfold act_enum.
  assert (K : forall v o, typed (TEnum ks) v -> ok1 (typed (TEnum ks)) (v, JOk o : jr out)) by (intros; split; [assumption|discriminate]).
  destruct (beq rem (bs "@type")); [now apply K|]. destruct (beq rem (bs "@signature")); [now apply K|].
  destruct args as [|b|z'|d|s|[|a l]|kvs]; try (now apply K).
  assert (L := leaf_typed TStr false a [] (VS []) Logic.I Logic.I).
  destruct (unpack_leaf narrow i2d false TStr a [] (VS [])) as [r| |]; cbn [fine] in L; [|split; [exact H|discriminate]|contradiction].
  destruct r; try contradiction. now apply K.
Qed.
Lemma forall_set : forall (P : jval -> Prop) l i (x : jval), i < length l -> Forall P l -> P x -> Forall P (set_nth jval l i x) /\ length (set_nth jval l i x) = length l.
Proof.
  intros P l i x L H Hx. unfold set_nth. split.
  - rewrite <- (firstn_skipn i l) in H. apply Forall_app in H as [H1 H2]. apply Forall_app. split; [exact H1|]. constructor; [exact Hx|].
    destruct (skipn i l) as [|z r] eqn:E.
    + replace (skipn (S i) l) with (@nil jval); [constructor|]. symmetry. apply skipn_all2. apply (f_equal (@length jval)) in E. rewrite skipn_length in E. cbn in E. lia.
    + replace (skipn (S i) l) with r; [now inversion H2|]. clear - E. revert l E. induction i as [|i IH]; intros l E; cbn [skipn] in *.
      * now subst l.
      * destruct l as [|y l]; [discriminate|]. now rewrite (IH l E).
  - rewrite app_length, firstn_length. cbn [length]. rewrite skipn_length. lia.
Qed.
Lemma remove_forall : forall (P : jval -> Prop) (l : list jval) i, Forall P l -> Forall P (remove_nth l i).
Proof.
  intros P l. induction l as [|x l IH]; intros [|i] H; cbn [remove_nth]; auto; apply Forall_cons_iff in H as [H1 H2]; auto.
Qed.
Lemma seq_good : forall fx t mp, rwf t -> goodact t mp -> goodact (TSeq fx t) (act_seq klt narrow i2d i2f d2z d2b fx t mp).
Proof.
  intros fx t mp W G v rem args H Ok. destruct v; try contradiction. unfold act_seq.
  set (convseq := fun l j => match conv (TSeq fx t) (VL l) j with (VL l', r) => (l', r) | (_, r) => (l, r) end).
  set (oproc := fun (l : list jval) (q : list ascii) (_ : jv) => if beq q (bs "@enum.@list") then (l, JOk (names [])) else (l, JErr EOther)).
  assert (K : forall o, ok1 (typed (TSeq fx t)) (VL l, JOk o : jr out)) by (intros; split; [exact H|discriminate]).
  assert (K' : forall e, ok1 (typed (TSeq fx t)) (VL l, JErr e : jr out)) by (intros; split; [exact H|discriminate]).
  destruct (startsWith rem (bs ".@elem")) eqn:Se.
  { rewrite Bool.andb_false_r. cbn [andb].
    destruct (C39_elem_safe jval out (dflt t) (conv t) mp convseq oproc (d2u d2z) l rem args Se)
      as [[e ->]|[->|(i & tl & x & r & Li & E & ->)]]; [apply K'|apply K|].
    destruct H as [H1 H2].
    assert (A : ok1 (typed t) (mp (nth i l (dflt t)) tl args)).
    { apply G; [|exact Ok]. rewrite Forall_forall in H1. apply H1. now apply nth_In. }
    rewrite E in A. destruct A as [A1 A2]. cbn [fst snd] in *. destruct (forall_set (typed t) l i x Li H1 A1) as [F1 F2].
    split; [split; [exact F1|now rewrite F2]|]. destruct r; [discriminate|discriminate|contradiction]. }
  cbn [negb]. rewrite Bool.andb_true_r. unfold seq_process. rewrite Se.
  destruct (startsWith rem (bs ".@insert")) eqn:Si.
  { destruct fx as [n|]; cbn [andb orb]; [apply K'|]. unfold seq_insert.
    assert (C := conv_typed t W (dflt t) args (typed_dflt t W) (proj1 Ok)). destruct (conv t (dflt t) args) as [x r].
    destruct C as [C1 C2]. cbn [fst snd] in *. destruct r; [|apply K'|contradiction].
    split; [|discriminate]. destruct H as [H1 _]. split; [|exact Logic.I]. apply Forall_app. auto. }
  destruct (startsWith rem (bs ".@erase")) eqn:Sr.
  { destruct fx as [n|]; cbn [andb orb]; [apply K'|]. unfold seq_erase.
    assert (C : conv_idx (d2u d2z) args <> JUB).
    { unfold conv_idx. destruct args as [|b|z|d|s|[|[|b|z|d|s|a|kvs] r]|kvs]; try discriminate. unfold d2u.
      destruct (proj1 Ok d eq_refl false 64%Z) as (z & -> & _). discriminate. }
    destruct (conv_idx (d2u d2z) args) as [idx|e|]; [|apply K'|contradiction].
    split; [|discriminate]. destruct H as [H1 _]. split; [|exact Logic.I]. destruct (idx <? len l)%N; [now apply remove_forall|exact H1]. }
  rewrite Bool.andb_false_r. unfold sequenceProcess. destruct rem as [|c rem].
  - assert (C : forall j, okreal j -> ok1 (typed (TSeq fx t)) (let '(l', r) := (let '(o, r) := convseq l j in (o, _ <~ r ;; JOk SRef)) in
        (VL l', o <~ r ;; JOk (match o with SRef => OVal (TSeq fx t) (VL l') | SVoid => OVoid | SSize n => OVal tsize (VI (Z.of_N n)) | SElem _ x | SObj x => x end)))).
    { intros j Rj. unfold convseq. assert (C := conv_typed (TSeq fx t) W (VL l) j H Rj). destruct (conv (TSeq fx t) (VL l) j) as [x r].
      destruct C as [C1 C2]. cbn [fst snd] in *. destruct x; try contradiction. split; [exact C1|]. destruct r; [discriminate|discriminate|contradiction]. }
    destruct args as [|b|z|d|s|[|a r]|kvs]; try (apply K); try (apply C; exact (proj1 Ok)).
    apply C. exact (proj2 Ok a r eq_refl).
  - destruct (startsWith (c :: rem) (bs ".@size")); [apply K|]. unfold oproc. destruct (beq (c :: rem) (bs "@enum.@list")); [apply K|apply K'].
Qed.
Lemma ptr_good : forall t mp, rwf t -> goodact t mp -> goodact (TPtr t) (act_ptr klt narrow i2d i2f d2z d2b t mp).
Proof.
  intros t mp W G v rem args H Ok. unfold act_ptr. destruct v; try contradiction; [split; [exact Logic.I|discriminate]|].
  destruct rem as [|c rem].
  - assert (C := set_from_typed t W v args H Ok). destruct (set_from klt narrow i2d i2f d2z d2b t v args) as [x r].
    destruct C as [C1 C2]. split; [exact C1|]. cbn [snd] in *. destruct r; [discriminate|discriminate|contradiction].
  - assert (C := G v (c :: rem) args H Ok). destruct (mp v (c :: rem) args) as [x r]. exact C.
Qed.
Lemma reg_good_all : (forall t, rwf t -> goodh t (reg t [] [])) /\ (forall ts : tys, True) /\
  (forall fs, rwf_flds fs -> forall gs j, (forall i n t, fnth fs i = Some (n, t) -> fnth gs (j + i) = Some (n, t)) ->
     goodh (TStruct gs) (reg_flds fs j [] [])) /\ (forall als : alts, True).
Proof.
  assert (T0 : tailp []) by now left.
  assert (M : forall t, rwf t -> goodh t (reg t [] []) -> goodact t (mapAndProcess (reg t [] []))).
  { intros t W G. apply map_good. apply goodh_fin; [apply reg_nofun|exact G]. }
  apply jty_mutind; auto; try (intros; contradiction).
  1-6: intros; cbn [RestObj_Model.reg]; constructor; [|constructor]; eapply good1_here; [exact T0| | | |reflexivity]; try reflexivity;
       cbn [RestObj_Model.root eact]; apply obj_good; [exact Logic.I|constructor|constructor].
  - intros ks _. cbn [RestObj_Model.reg]. constructor; [|constructor; [|constructor]].
    + eapply good1_here; [exact T0| | | |reflexivity]; try reflexivity. cbn [eact]. apply enum_good.
    + eexists. split; [reflexivity|]. cbn [fst]. replace (enumk (bs "@enum." ++ ename ks)) with true.
      * split; [reflexivity|]. eexists. reflexivity.
      * symmetry. reflexivity.
  - intros fx t IH W. cbn [RestObj_Model.reg]. constructor; [|constructor].
    eapply good1_here; [exact T0| | | |reflexivity]; try reflexivity. cbn [eact]. apply seq_good; [exact W|]. apply M; auto.
  - intros a IHa b IHb [Wa Wb]. rewrite reg_pair.
    assert (G : goodh (TPair a b) (reg a [0] (bs ".first") ++ reg b [1] (bs ".second"))).
    { apply Forall_app. rewrite (reg_move klt narrow i2d i2f d2z d2b tname ename a [0]), (reg_move klt narrow i2d i2f d2z d2b tname ename b [1]). split.
      - apply (goodh_under (TPair a b) a); [right; eexists; reflexivity| |now apply IHa]. intros q t' Gp v Hv. destruct v; try contradiction.
        destruct Hv as [H1 H2]. destruct (Gp v1 H1) as (x & Gx & Hx & Hu). exists x. cbn [getp putp]. split; [exact Gx|]. split; [exact Hx|].
        intros y Hy. split; [now apply Hu|exact H2].
      - apply (goodh_under (TPair a b) b); [right; eexists; reflexivity| |now apply IHb]. intros q t' Gp v Hv. destruct v; try contradiction.
        destruct Hv as [H1 H2]. destruct (Gp v2 H2) as (x & Gx & Hx & Hu). exists x. cbn [getp putp]. split; [exact Gx|]. split; [exact Hx|].
        intros y Hy. split; [exact H1|now apply Hu]. }
    rewrite app_assoc. apply Forall_app. split; [exact G|]. constructor; [|constructor].
    eapply good1_here; [exact T0| | | |reflexivity]; try reflexivity. cbn [RestObj_Model.root eact]. apply obj_good; [split; auto| |exact G].
    apply noFun_app. split; apply reg_nofun.
  - intros fs IH [Nd W]. rewrite reg_struct. assert (G : goodh (TStruct fs) (reg_flds fs 0 [] [])) by (apply IH; [exact W|auto]).
    apply Forall_app. split; [exact G|]. constructor; [|constructor].
    eapply good1_here; [exact T0| | | |reflexivity]; try reflexivity. cbn [RestObj_Model.root eact]. apply obj_good; [split; auto| |exact G].
    apply regf_nofun.
  - intros t IH W. cbn [RestObj_Model.reg]. constructor; [|constructor].
    eapply good1_here; [exact T0| | | |reflexivity]; try reflexivity. cbn [eact]. apply ptr_good; [exact W|]. apply M; auto.
  - intros _ gs j _. constructor.
  - intros n t IHt fs IHf (Dn & Bn & Wt & Wf) gs j Hg. cbn [RestObj_Model.reg_flds]. apply Forall_app. split.
    + rewrite (reg_move klt narrow i2d i2f d2z d2b tname ename t ([] ++ [j])). cbn [app].
      apply (goodh_under (TStruct gs) t); [apply mname_tail| |now apply IHt]. intros q t' Gp v Hv. destruct v; try contradiction.
      assert (F := Hg 0 n t eq_refl). rewrite Nat.add_0_r in F. destruct (typed_nth gs l j n t Hv F) as (x & E & Hx & Hu).
      destruct (Gp x Hx) as (z & Gz & Hz & Hp). exists z. cbn [getp putp]. rewrite E. split; [exact Gz|]. split; [exact Hz|].
      intros y Hy. apply Hu. now apply Hp.
    + apply (IHf Wf gs (S j)). intros i n' t' F. specialize (Hg (S i) n' t' F). now rewrite Nat.add_succ_r in Hg.
Qed.
(** Whatever is asked, with whatever arguments: the object remains an object of its
    type, and nothing undefined happens. *)
Theorem C93_typed : forall d t v q args, rwf t -> typed t v -> okargs args ->
  typed t (fst (rest d t v q args)) /\ snd (rest d t v q args) <> JUB.
Proof.
  intros d t v q args W H Ok. unfold rest.
  assert (G : forall k e, fin k (reg t [] d) None = Some e -> gooden t e).
  { intros k e Fe. assert (Nf := reg_nofun klt narrow i2d i2f d2z d2b tname ename t [] d).
    destruct (fin_obj k _ None e Nf ltac:(discriminate) Fe) as [r ->]. exists r. split; [reflexivity|].
    destruct (fin_in k _ None r Nf Fe) as [(x & I & O)|F]; [|discriminate].
    rewrite (reg_move klt narrow i2d i2f d2z d2b tname ename t [] d) in I. apply in_map_iff in I as (p & E & I).
    assert (G := proj1 reg_good_all t W). unfold goodh in G. rewrite Forall_forall in G. destruct (G p I) as (e' & E' & Ge).
    unfold tr in E. unfold good. destruct (enumk (fst p)).
    - left. subst p. cbn [snd] in E'. assert (e' = r) by congruence. now subst e'.
    - right. injection E as _ <-. assert (X : opent (renop [] (snd p)) = Some e').
      { destruct (snd p) as [x|f|x]; cbn [renop opent] in *; rewrite ?ren_nil; exact E'. }
      assert (e' = r) by congruence. subst e'. tauto. }
  apply (run_good t); auto. intros k e Fe. left. now apply (G k).
Qed.

(** ** C94: queries without arguments *)
(** nothing is inserted or erased *)
Definition clean (q : list ascii) : Prop := forall a b, q <> a ++ bs ".@insert" ++ b /\ q <> a ++ bs ".@erase" ++ b.
Definition noargs (args : jv) : Prop := args = JNull \/ args = JArr [].
Lemma clean_suffix : forall a q, clean (a ++ q) -> clean q.
Proof.
  intros a q H x y. destruct (H (a ++ x) y) as [H1 H2]. rewrite <- !app_assoc in *.
  split; intros ->; [now apply H1|now apply H2].
Qed.
Definition pure (a : action) : Prop := forall x rem args, clean rem -> noargs args -> fst (a x rem args) = x.
Definition pureh (h : list (list ascii * op rent unit)) : Prop := Forall (fun p => exists e, opent (snd p) = Some e /\ pure (eact e)) h.
Lemma pure_call : forall e v rem args, pure (eact e) -> clean rem -> noargs args ->
  fst (match getp v (epath e) with
       | Some x => let '(x', r) := eact e x rem args in (putp v (epath e) x', r)
       | None => (v, JUB)
       end) = v.
Proof.
  intros e v rem args P C Na. destruct (getp v (epath e)) as [x|] eqn:G; [|reflexivity].
  assert (E := P x rem args C Na). destruct (eact e x rem args) as [x' r]. cbn [fst] in *. subst x'. now apply put_get.
Qed.
Lemma pureh_fin : forall h, noFun h -> pureh h -> forall k e, fin k h None = Some e -> exists r, e = EObj r /\ pure (eact r).
Proof.
  intros h Nf G k e Fe. destruct (fin_obj k h None e Nf ltac:(discriminate) Fe) as [r ->]. exists r. split; [reflexivity|].
  destruct (fin_in k h None r Nf Fe) as [(x & I & O)|F]; [|discriminate].
  unfold pureh in G. rewrite Forall_forall in G. destruct (G _ I) as (e' & E' & Ge). cbn [snd] in E'. assert (e' = r) by congruence. now subst e'.
Qed.
Lemma run_pure : forall h, noFun h -> pureh h -> pure (run h).
Proof.
  intros h Nf G v q args C Na. assert (F := pureh_fin h Nf G). unfold run.
  destruct (list_eq_dec ascii_dec q (bs "@enum.@list")) as [->|Nq].
  { unfold process. rewrite (proj2 (beq_eq _ _) eq_refl). now destruct (enums _ _). }
  destruct (process_spec (entry rent unit) wrapb (regs h) q Nq) as [(p & t0 & e & (E & _) & Fe & _ & ->)|[_ ->]].
  - rewrite fin_regs in Fe. destruct (F p e Fe) as (r & -> & Pr). subst q. apply clean_suffix in C.
    unfold served. destruct (list_eq_dec _ _ _); [reflexivity|]. destruct (list_eq_dec _ _ _); [now destruct (getp v (epath r))|].
    destruct (list_eq_dec _ _ _); [reflexivity|]. now apply pure_call.
  - rewrite fin_regs. destruct (fin [] h None) as [e|] eqn:Fe; [|reflexivity]. destruct (F [] e Fe) as (r & -> & Pr).
    unfold at_entry. repeat match goal with |- context [if ?b then _ else _] => destruct b end;
      try reflexivity; try (now destruct (getp v (epath r))); now apply pure_call.
Qed.
Lemma map_pure : forall h, noFun h -> pureh h -> pure (mapAndProcess h).
Proof.
  intros h Nf G v q args C Na. unfold mapAndProcess. destruct q as [|c q].
  - rewrite fin_regs. destruct (fin [] h None) as [e|] eqn:Fe; [|reflexivity].
    destruct (pureh_fin h Nf G [] e Fe) as (r & -> & Pr). now apply pure_call.
  - now apply run_pure.
Qed.
Lemma obj_pure : forall t inner, noFun inner -> pureh inner -> pure (root_act klt narrow i2d i2f d2z d2b tname t inner).
Proof.
  intros t inner Nf G v rem args C Na. unfold root_act, act_obj. destruct rem as [|c rem].
  - unfold set_from. now destruct Na as [->| ->].
  - apply map_pure; auto.
    + apply noFun_app. split; [exact Nf|]. constructor; [exact Logic.I|constructor].
    + apply Forall_app. split; [exact G|]. constructor; [|constructor]. eexists. split; [reflexivity|]. intros x r a _ _. reflexivity.
Qed.
Lemma seq_pure : forall fx t mp, pure mp -> pure (act_seq klt narrow i2d i2f d2z d2b fx t mp).
Proof.
  intros fx t mp P v rem args C Na. destruct v; try reflexivity. unfold act_seq. destruct (_ && _ && _); [reflexivity|].
  set (convseq := fun l j => match conv (TSeq fx t) (VL l) j with (VL l', r) => (l', r) | (_, r) => (l, r) end).
  set (oproc := fun (l : list jval) (q : list ascii) (_ : jv) => if beq q (bs "@enum.@list") then (l, JOk (names [])) else (l, JErr EOther)).
  enough (E : fst (seq_process jval out (dflt t) (conv t) mp convseq oproc (d2u d2z) l rem args) = l).
  { destruct (seq_process jval out (dflt t) (conv t) mp convseq oproc (d2u d2z) l rem args) as [l' r]. cbn [fst] in *. now subst l'. }
  unfold seq_process. destruct (startsWith rem (bs ".@elem")).
  - destruct (elemImpl jval l rem) as [[[i idxEnd]|]|e|]; try reflexivity.
    destruct (nth_error l (N.to_nat i)) as [x|] eqn:Ex; [|reflexivity].
    assert (E : fst (mp x (skipn idxEnd rem) args) = x).
    { apply P; [|exact Na]. apply (clean_suffix (firstn idxEnd rem)). now rewrite firstn_skipn. }
    destruct (mp x (skipn idxEnd rem) args) as [x' r]. cbn [fst] in *. subst x'. now apply update_same.
  - destruct (startsWith rem (bs ".@insert")) eqn:Si.
    { apply startsWith_spec in Si as [b ->]. destruct (C [] b) as [H _]. now destruct H. }
    destruct (startsWith rem (bs ".@erase")) eqn:Sr.
    { apply startsWith_spec in Sr as [b ->]. destruct (C [] b) as [_ H]. now destruct H. }
    unfold sequenceProcess. destruct rem as [|c rem]; [now destruct Na as [->| ->]|].
    destruct (startsWith (c :: rem) (bs ".@size")); [reflexivity|]. unfold oproc. now destruct (beq (c :: rem) (bs "@enum.@list")).
Qed.
Lemma ptr_pure : forall t mp, pure mp -> pure (act_ptr klt narrow i2d i2f d2z d2b t mp).
Proof.
  intros t mp P v rem args C Na. unfold act_ptr. destruct v; try reflexivity. destruct rem as [|c rem].
  - unfold set_from. now destruct Na as [->| ->].
  - assert (E := P v (c :: rem) args C Na). destruct (mp v (c :: rem) args) as [x' r]. cbn [fst] in *. now subst x'.
Qed.
Lemma pureh_tr : forall pre d h, pureh h -> pureh (map (tr pre d) h).
Proof.
  intros pre d h G. unfold pureh in *. rewrite Forall_map. eapply Forall_impl; [|exact G]. intros [k x] (e & E & P). cbn [snd] in E.
  unfold tr. cbn [fst snd]. destruct (enumk k); [exists e; auto|]. exists (ren pre e). split; [|exact P].
  destruct x; cbn [snd renop opent] in *; congruence.
Qed.
Lemma reg_pure_all : (forall t, pureh (reg t [] [])) /\ (forall ts : tys, True) /\
  (forall fs j, pureh (reg_flds fs j [] [])) /\ (forall als : alts, True).
Proof.
  assert (One : forall k e, pure (eact e) -> forall x, opent x = Some e -> pureh [(k, x)]).
  { intros k e P x Hx. constructor; [|constructor]. exists e. auto. }
  assert (M : forall t, pureh (reg t [] []) -> pure (mapAndProcess (reg t [] []))).
  { intros t G. apply map_pure; [apply reg_nofun|exact G]. }
  apply jty_mutind; auto; try (intros; constructor; fail).
  1-6: intros; cbn [RestObj_Model.reg]; eapply One; [|reflexivity]; cbn [RestObj_Model.root eact]; apply obj_pure; constructor.
  - intros ks. cbn [RestObj_Model.reg]. constructor; [|constructor; [|constructor]]; eexists; (split; [reflexivity|]); cbn [eact].
    + intros x rem args _ Na. unfold act_enum. destruct (beq rem (bs "@type")); [reflexivity|]. destruct (beq rem (bs "@signature")); [reflexivity|].
      destruct Na as [->| ->]; now destruct x.
    + intros x rem args _ _. reflexivity.
  - intros fx t IH. cbn [RestObj_Model.reg]. eapply One; [|reflexivity]. cbn [eact]. apply seq_pure. auto.
  - intros a IHa b IHb. rewrite reg_pair.
    assert (G : pureh (reg a [0] (bs ".first") ++ reg b [1] (bs ".second"))).
    { apply Forall_app. rewrite (reg_move klt narrow i2d i2f d2z d2b tname ename a [0]), (reg_move klt narrow i2d i2f d2z d2b tname ename b [1]).
      split; now apply pureh_tr. }
    rewrite app_assoc. apply Forall_app. split; [exact G|]. eapply One; [|reflexivity]. cbn [RestObj_Model.root eact]. apply obj_pure; [|exact G].
    apply noFun_app. split; apply reg_nofun.
  - intros fs IH. rewrite reg_struct. apply Forall_app. split; [apply IH|]. eapply One; [|reflexivity]. cbn [RestObj_Model.root eact].
    apply obj_pure; [apply regf_nofun|apply IH].
  - intros t IH. cbn [RestObj_Model.reg]. eapply One; [|reflexivity]. cbn [eact]. apply ptr_pure. auto.
  - intros n t IHt fs IHf j. cbn [RestObj_Model.reg_flds]. apply Forall_app. split; [|apply IHf].
    rewrite (reg_move klt narrow i2d i2f d2z d2b tname ename t ([] ++ [j])). now apply pureh_tr.
Qed.
(** A query without arguments reads: unless it says "@insert" or "@erase" it changes
    nothing, whatever else it says. *)
Theorem C94_readonly : forall d t v q args, noargs args -> clean q -> fst (rest d t v q args) = v.
Proof.
  intros d t v q args Na C. unfold rest. apply run_pure; auto; [apply reg_nofun|].
  rewrite (reg_move klt narrow i2d i2f d2z d2b tname ename t [] d). apply pureh_tr. exact (proj1 reg_pure_all t).
Qed.

(** ** C95: listings *)
Notation look := (look klt narrow i2d i2f d2z d2b tname ename).
Notation rootent := (rootent klt narrow i2d i2f d2z d2b tname ename).
Definition members (t : jty) : list (list ascii * op rent unit) :=
  match t with
  | TPair a b => reg a [0] (bs ".first") ++ reg b [1] (bs ".second")
  | TStruct fs => reg_flds fs 0 [] []
  | _ => []
  end.
Definition compound (t : jty) : Prop := match t with TPair _ _ | TStruct _ => True | _ => False end.
Lemma keys_find : forall V k (m : list (list ascii * V)), In k (map fst m) <-> exists e, mfind bcmp k m = Some e.
Proof.
  intros V k m. induction m as [|[k' e'] m IH]; cbn [map fst In mfind]; [split; [tauto|intros [e H]; discriminate]|].
  destruct (bcmp k k') eqn:E.
  - apply bcmp_eq in E. subst k'. split; [eauto|auto].
  - rewrite IH. split; [intros [->|H]|auto]; [|exact H]. rewrite (proj2 (bcmp_eq k k) eq_refl) in E. discriminate.
  - rewrite IH. split; [intros [->|H]|auto]; [|exact H]. rewrite (proj2 (bcmp_eq k k) eq_refl) in E. discriminate.
Qed.
Lemma look_members : forall t k, compound t -> k <> [] -> look t k = fin k (members t) None.
Proof.
  intros t k Ct Nk. unfold RestObj_Proofs.look. destruct t; try contradiction; cbn [members].
  - rewrite reg_pair, app_assoc, fin_app. apply fin_skip. intros [H|[]]. now apply Nk.
  - rewrite reg_struct, fin_app. apply fin_skip. intros [H|[]]. now apply Nk.
Qed.
(** every entry that is not an enumeration is what its object would be alone *)
Definition plain (p : list ascii * op rent unit) : Prop :=
  exists e, opent (snd p) = Some e /\ (enumk (fst p) = true \/ (e = ren (epath e) (rootent (ety e)) /\ rwf (ety e))).
Lemma plain_tr : forall pre d h, tailp d -> Forall (fun p => relk (fst p)) h -> Forall plain h -> Forall plain (map (tr pre d) h).
Proof.
  intros pre d h Td Rk P. rewrite Forall_map. rewrite Forall_forall in *. intros [k x] I. destruct (P _ I) as (e & E & Q). cbn [fst snd] in *.
  unfold tr. cbn [fst snd]. destruct (enumk k) eqn:Ek.
  - exists e. cbn [fst snd]. auto.
  - exists (ren pre e). cbn [fst snd]. split; [destruct x; cbn [renop opent] in *; congruence|]. right.
    destruct Q as [Q|[Q R]]; [discriminate|]. split; [|exact R]. rewrite Q at 1. rewrite ren_ren. reflexivity.
Qed.
Lemma plain_all : (forall t, rwf t -> Forall plain (reg t [] [])) /\ (forall ts : tys, True) /\
  (forall fs, rwf_flds fs -> forall j, Forall plain (reg_flds fs j [] [])) /\ (forall als : alts, True).
Proof.
  assert (One : forall t x, rwf t -> opent x = Some (rootent t) -> ety (rootent t) = t -> plain ([], x)).
  { intros t x W Hx Ht. exists (rootent t). split; [exact Hx|]. right. rewrite rootent_path, Ht. now rewrite ren_nil. }
  apply jty_mutind; auto; try (intros; contradiction).
  1-6: intros; cbn [RestObj_Model.reg]; (constructor; [|constructor]); match goal with |- plain ([], OpEmplace (RestObj_Model.root _ _ _ _ _ _ _ ?t _ _)) => apply (One t); [exact Logic.I|reflexivity|reflexivity] end.
  - intros ks _. cbn [RestObj_Model.reg]. constructor; [|constructor; [|constructor]].
    + apply (One (TEnum ks)); [exact Logic.I|reflexivity|reflexivity].
    + eexists. split; [reflexivity|]. left. reflexivity.
  - intros fx t _ W. cbn [RestObj_Model.reg]. constructor; [|constructor]. apply (One (TSeq fx t)); [exact W|reflexivity|reflexivity].
  - intros a IHa b IHb [Wa Wb]. rewrite reg_pair. apply Forall_app. split; [|apply Forall_app; split].
    + rewrite (reg_move klt narrow i2d i2f d2z d2b tname ename a). apply plain_tr; [right; eexists; reflexivity|apply reg_relk|auto].
    + rewrite (reg_move klt narrow i2d i2f d2z d2b tname ename b). apply plain_tr; [right; eexists; reflexivity|apply reg_relk|auto].
    + constructor; [|constructor]. apply (One (TPair a b)); [now split|reflexivity|reflexivity].
  - intros fs IH [Nd W]. rewrite reg_struct. apply Forall_app. split; [now apply IH|]. constructor; [|constructor]. apply (One (TStruct fs)); [now split|reflexivity|reflexivity].
  - intros t _ W. cbn [RestObj_Model.reg]. constructor; [|constructor]. apply (One (TPtr t)); [exact W|reflexivity|reflexivity].
  - intros _ j. constructor.
  - intros n t IHt fs IHf (_ & _ & Wt & Wf) j. cbn [RestObj_Model.reg_flds]. apply Forall_app. split; [|now apply IHf].
    rewrite (reg_move klt narrow i2d i2f d2z d2b tname ename t). apply plain_tr; [apply mname_tail|apply reg_relk|auto].
Qed.
Lemma look_plain : forall t k e, rwf t -> look t k = Some (EObj e) -> enumk k = false ->
  e = ren (epath e) (rootent (ety e)) /\ rwf (ety e) /\ tailp k /\ goodpath t (ety e) (epath e).
Proof.
  intros t k e W L Ek. unfold RestObj_Proofs.look in L.
  destruct (fin_in k _ None e (reg_nofun klt narrow i2d i2f d2z d2b tname ename t [] []) L) as [(x & I & O)|F]; [|discriminate].
  assert (P := proj1 plain_all t W). assert (G := proj1 reg_good_all t W). unfold goodh in G.
  rewrite Forall_forall in P, G. destruct (P _ I) as (e1 & E1 & Q). destruct (G _ I) as (e2 & E2 & R). cbn [fst snd] in *. rewrite Ek in *.
  assert (e1 = e) by congruence. assert (e2 = e) by congruence. subst e1 e2. destruct Q as [Q|Q]; [discriminate|]. tauto.
Qed.
Lemma typed_proper : forall t v, typed t v -> proper t v.
Proof. intros t v H. destruct t; cbn [proper]; auto; destruct v; try contradiction; eauto. Qed.
(** A listing of an object of a class names all its members, and every name it gives,
    other than those of enumerations, is the name of a sub-object that can be read. *)
Theorem C95_list : forall c d t v args, rwf t -> compound t -> typed t v -> ~ In (bs "@list") (tops t) -> c <> "@"%char ->
  exists ks, rest (c :: d) t v (c :: d ++ bs ".@list") args = (v, JOk (names ks)) /\
    (forall n, In n (tops t) -> In (dot :: n) ks) /\
    (forall k, In k ks -> enumk k = true \/
       exists t' x, typed t' x /\ rest (c :: d) t v (c :: d ++ k) JNull = (v, JOk (shown t' x))).
Proof.
  intros c d t v args W Ct H Nl Hc.
  set (ks := filter (fun k => negb (beq k [])) (keys (members t))). exists ks.
  assert (IK : forall k, In k ks <-> k <> [] /\ exists e, look t k = Some e).
  { intros k. unfold ks. rewrite filter_In. unfold keys. rewrite keys_find.
    split; [intros [[e E] B]|intros [Nk [e E]]].
    - assert (Nk : k <> []) by (intros ->; discriminate B). split; [exact Nk|]. exists e. now rewrite (look_members t k Ct Nk), <- fin_regs.
    - split; [|destruct (beq k []) eqn:B; [now apply beq_eq in B|reflexivity]]. exists e. now rewrite fin_regs, <- (look_members t k Ct Nk). }
  split; [|split].
  - assert (R : resolved klt narrow i2d i2f d2z d2b tname ename t (bs ".@list") [] (bs ".@list") (rootent t)).
    { split; [reflexivity|]. split; [now left|]. split; [right; eexists; reflexivity|]. split; [now apply look_root|].
      intros s' tl' E Ts' Tt' L. destruct (look t s') as [e|] eqn:Le; [|reflexivity]. exfalso.
      assert (Es : s' = bs ".@list" /\ tl' = []).
      { destruct Ts' as [->|[r ->]]; [cbn in L; lia|]. assert (E2 : bs "@list" = r ++ tl') by (injection E as E; exact E). clear E.
        destruct Tt' as [->|[r' ->]].
        - rewrite app_nil_r in E2. split; [now rewrite <- E2|reflexivity].
        - exfalso. assert (D : In dot (bs "@list")) by (rewrite E2; apply in_or_app; right; now left).
          revert D. now apply nodotb_ok. }
      destruct Es as [-> ->]. unfold RestObj_Proofs.look in Le.
      destruct (look_obj klt narrow i2d i2f d2z d2b tname ename t _ _ Le) as [r ->].
      destruct (fin_in _ _ None r (reg_nofun klt narrow i2d i2f d2z d2b tname ename t [] []) Le) as [(x & I & _)|F]; [|discriminate].
      assert (B := proj1 (reg_below klt narrow i2d i2f d2z d2b tname ename) t W). rewrite Forall_forall in B. specialize (B _ I). cbn [fst] in B.
      destruct B as [B|[B|(n & r' & B & Dn & Tr & In')]]; [discriminate|discriminate|].
      assert (B2 : bs "@list" ++ [] = n ++ r') by (injection B as B; exact B). clear B.
      destruct (dotless_cut _ _ _ _ Dn Tr (nodotb_ok (bs "@list") eq_refl) (or_introl eq_refl) (eq_sym B2)) as [-> _]. contradiction. }
    unfold rest. change (c :: d ++ bs ".@list") with ((c :: d) ++ bs ".@list").
    assert (TL : tailp (bs ".@list")) by (right; eexists; reflexivity).
    rewrite (run_resolved klt narrow i2d i2f d2z d2b tname ename t c d (bs ".@list") [] (bs ".@list") (rootent t) v args Hc TL R).
    unfold serve, served. rewrite rootent_path. destruct (list_eq_dec ascii_dec (bs ".@list") (bs ".@signature")) as [X|_]; [discriminate X|].
    destruct (list_eq_dec ascii_dec (bs ".@list") (bs ".@list")) as [_|X]; [|congruence]. cbn [getp].
    destruct t; try contradiction; reflexivity.
  - intros n Hn. apply IK. split; [discriminate|]. destruct (tops_look klt narrow i2d i2f d2z d2b tname ename t W n Hn) as (_ & e & E). eauto.
  - intros k Hk. apply IK in Hk as [Nk [e Le]]. destruct (look_obj klt narrow i2d i2f d2z d2b tname ename t _ _ Le) as [r ->].
    destruct (enumk k) eqn:Ek; [now left|right]. destruct (look_plain t k r W Le Ek) as (Er & Wr & Tk & Gp).
    destruct (Gp v H) as (x & Gx & Hx & _). exists (ety r), x. split; [exact Hx|].
    assert (R : resolved klt narrow i2d i2f d2z d2b tname ename t k k [] r).
    { split; [now rewrite app_nil_r|]. split; [exact Tk|]. split; [now left|]. split; [exact Le|].
      intros s' tl' E _ _ L. apply (f_equal (@length ascii)) in E. rewrite app_length in E. lia. }
    unfold rest. change (c :: d ++ k) with ((c :: d) ++ k).
    rewrite (run_resolved klt narrow i2d i2f d2z d2b tname ename t c d k k [] r v JNull Hc Tk R).
    assert (Rd := read_here klt narrow i2d i2f d2z d2b tname ename (ety r) x JNull Wr (typed_proper _ _ Hx) (or_introl eq_refl)).
    rewrite map_empty in Rd by exact Wr. unfold serve, served.
    repeat (destruct (list_eq_dec ascii_dec [] _) as [X|_]; [discriminate X|]). rewrite Gx.
    rewrite Er at 1. cbn [ren eact]. rewrite Rd. now rewrite (put_get (epath r) v x Gx).
Qed.
End C93.

Lemma v0_typed : typed tt_ v0.
Proof.
  split; [split; exact Logic.I|]. split; [intros _; vm_compute; split; [discriminate|reflexivity]|]. split; [exact Logic.I|].
  split; [split; [|exact Logic.I]|].
  - constructor; [split; [intros _; vm_compute; split; [discriminate|reflexivity]|exact Logic.I]|].
    constructor; [split; [intros _; vm_compute; split; [discriminate|reflexivity]|exact Logic.I]|constructor].
  - split; [split; exact Logic.I|]. split; exact Logic.I.
Qed.
Example C93_typed_ex : rwf tt_ /\ typed tt_ v0 /\ okargs d2z0 (JArr [JInt 9]) /\
  rest0 (bs "o") tt_ v0 (bs "o.l.@elem.1.first") (JArr [JInt 9]) =
  (VL [VL [VD 7]; VI 5; VS (bs "str"); VL [VP (VI 1) (VS (bs "one")); VP (VI 9) (VS (bs "two"))]; VPtr (VL [VB true]); VI 1], JOk (OVal tint (VI 9))).
Proof.
  split; [exact tt_wf|]. split; [exact v0_typed|]. split; [|vm_compute; reflexivity].
  split; [intros d H; discriminate H|]. intros a r H d Hd. injection H as <- _. discriminate Hd.
Qed.
Print Assumptions C93_typed.
(** A JSON number with a fraction or an exponent that is out of the range of the integer
    it is assigned to is converted all the same. *)
Theorem C93_real_refuted : exists args, snd (rest0 (bs "o") tt_ v0 (bs "o.x") args) = JUB /\ args = JReal 1000.
Proof. exists (JReal 1000). split; [vm_compute; reflexivity|reflexivity]. Qed.
Print Assumptions C93_real_refuted.

Example C94_readonly_ex : clean (bs "o.l.@elem.1.first") /\ rest0 (bs "o") tt_ v0 (bs "o.l.@elem.1.first") JNull = (v0, JOk (OVal tint (VI 2))).
Proof.
  split; [|vm_compute; reflexivity]. intros a b. split; intros H.
  - do 17 (destruct a as [|? a]; cbn in H; [discriminate H|injection H as _ H]). destruct a; discriminate H.
  - do 17 (destruct a as [|? a]; cbn in H; [discriminate H|injection H as _ H]). destruct a; discriminate H.
Qed.
Print Assumptions C94_readonly.
(** "@insert" and "@erase" do not insist on an argument: without one, an element with the
    default value is appended, and the first element is erased. *)
Theorem C94_insert_refuted : exists q, rest0 (bs "v") (TSeq None tint) (VL [VI 7]) q JNull = (VL [VI 7; VI 0], JOk (OVal (TSeq None tint) (VL [VI 7; VI 0])))
  /\ q = bs "v.@insert".
Proof. exists (bs "v.@insert"). split; [vm_compute; reflexivity|reflexivity]. Qed.
Print Assumptions C94_insert_refuted.
(** "@erase" without an argument erases the first element. *)
Theorem C94_erase_refuted : exists q, rest0 (bs "v") (TSeq None tint) (VL [VI 7; VI 8]) q JNull = (VL [VI 8], JOk (OVal (TSeq None tint) (VL [VI 8])))
  /\ q = bs "v.@erase".
Proof. exists (bs "v.@erase"). split; [vm_compute; reflexivity|reflexivity]. Qed.
Print Assumptions C94_erase_refuted.

Example C95_list_ex : compound tt_ /\ ~ In (bs "@list") (tops tt_) /\
  rest0 (bs "o") tt_ v0 (bs "o.@list") JNull =
  (v0, JOk (names [bs ".e"; bs ".l"; bs ".p"; bs ".s"; bs ".x"; bs ".y"; bs "@enum.Colour"])).
Proof.
  split; [exact Logic.I|]. split; [|vm_compute; reflexivity]. intros H. cbn in H.
  repeat (destruct H as [H|H]; [discriminate H|]). exact H.
Qed.
Print Assumptions C95_list.
(** The listing of an object with an enum member contains the name of the enumeration,
    which cannot be used as the name of a sub-object. *)
Theorem C95_enum_refuted : exists k ks, rest0 (bs "o") tt_ v0 (bs "o.@list") JNull = (v0, JOk (names ks)) /\ In k ks /\
  rest0 (bs "o") tt_ v0 (bs "o" ++ k) JNull = (v0, JErr EOther).
Proof.
  exists (bs "@enum.Colour"), [bs ".e"; bs ".l"; bs ".p"; bs ".s"; bs ".x"; bs ".y"; bs "@enum.Colour"].
  split; [vm_compute; reflexivity|]. split; [do 6 right; left; reflexivity|]. vm_compute. reflexivity.
Qed.
Print Assumptions C95_enum_refuted.

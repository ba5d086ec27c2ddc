(** * The variables for overloaded members: C81 *)
From Verif Require Import Base Base_Proofs SMap Dec Desc_Model Tok_Model Parse_Model Parse_Props ClassParse_Model ClassParse_Spec ClassFile_Spec ClassParse_Props Gen_Model GenPP_Props GenFile_Props.

(** ** What should hold of the members [acts] recorded for one class and the declarations [O] *)
Inductive subseq {A} : list A -> list A -> Prop :=
| sub_nil l : subseq [] l
| sub_skip a l m : subseq l m -> subseq l (a :: m)
| sub_take a l m : subseq l m -> subseq (a :: l) (a :: m).
(** the action names no temporary: it gives the address of a member, a member, an array or a base *)
Definition plain_start (t : tok) : Prop := exists p r, In p ["&"; "arg."; "classdesc::is_array(),"; "classdesc::base_cast<"]%string /\ t = bs p ++ r.
Definition plain_act (a : act) : Prop := plain_start (a_action a) \/ exists r, a_action a = bs "classdesc::is_const_static()," ++ r /\ plain_start r.
(** the action of a member declared by [s] *)
Definition act_for (s : msig) (a : act) : Prop :=
  a_name a = bs "." ++ s_name s /\
  exists c, (c = [] \/ c = bs "classdesc::is_const_static(),") /\
    a_action a = c ++ (match s_ty s with TCtor => bs "classdesc::is_constructor()," | _ => [] end) ++ s_decl s.
Inductive woven : list act -> list msig -> Prop :=
| wo_nil : woven [] []
| wo_plain a l O : woven l O -> plain_act a -> woven (l ++ [a]) O
| wo_temp a s l O : woven l O -> act_for s a -> woven (l ++ [a]) (O ++ [s]).
(** [numbered O ns]: the temporaries are named after the member and numbers, which grow for each member *)
Inductive numbered (prefix : tok) : list msig -> list N -> Prop :=
| nu_nil : numbered prefix [] []
| nu_add s n O ns : numbered prefix O ns -> s_decl s = bs "TmpMemPtr_" ++ s_name s ++ dec n -> s_prefix s = prefix ->
    (forall p, In p (combine O ns) -> s_name (fst p) = s_name s -> (snd p < n)%N) -> numbered prefix (O ++ [s]) (ns ++ [n]).

(** ** The declarations only grow *)
Definition grows {A} (m : C A) : Prop := forall g i a g' i', m g i = COk a g' i' -> exists X, g_over g' = g_over g ++ X.
Definition same {A} (m : C A) : Prop := forall g i a g' i', m g i = COk a g' i' -> g_over g' = g_over g.
Lemma same_grows {A} (m : C A) : same m -> grows m.
Proof. intros H g i a g' i' E. exists []. rewrite app_nil_r. eapply H; eauto. Qed.
Lemma same_ret {A} (a : A) : same (cret a). Proof. intros g i b g' i' [= _ <- _]. reflexivity. Qed.
Lemma same_bind {A B} (m : C A) (k : A -> C B) : same m -> (forall a, same (k a)) -> same (cbind m k).
Proof. intros H K g i b g' i' E. unfold cbind in E. destruct (m g i) eqn:M; try discriminate. apply H in M. rewrite <- M. eapply K; eauto. Qed.
Lemma grows_bind {A B} (m : C A) (k : A -> C B) : grows m -> (forall a, grows (k a)) -> grows (cbind m k).
Proof. intros H K g i b g' i' E. unfold cbind in E. destruct (m g i) eqn:M; try discriminate. destruct (H _ _ _ _ _ M) as (X & EX). destruct (K _ _ _ _ _ _ E) as (Y & EY). exists (X ++ Y). now rewrite EY, EX, app_assoc. Qed.
Lemma same_get : same get. Proof. intros g i b g' i' [= _ <- _]. reflexivity. Qed.
Lemma same_put i : same (put i). Proof. intros g j b g' i' [= _ <- _]. reflexivity. Qed.
Lemma same_lift {A} (f : inp -> pres A) : same (lift f).
Proof. intros g i b g' i' E. unfold lift in E. destruct (f i); try discriminate. injection E as _ <- _. reflexivity. Qed.
Lemma same_opt {A} (x : option A) : same (opt x).
Proof. intros g i b g' i' E. unfold opt in E. destruct x; try discriminate. injection E as _ <- _. reflexivity. Qed.
Lemma same_upd f : (forall g, g_over (f g) = g_over g) -> same (upd f).
Proof. intros H g i b g' i' [= _ <- _]. apply H. Qed.
Lemma same_when b m : same m -> same (when b m). Proof. destruct b; [auto|intros _; apply same_ret]. Qed.
Lemma same_ns : same get_ns. Proof. intros g i b g' i' [= _ <- _]. reflexivity. Qed.
Lemma same_fresh : same fresh_name. Proof. intros g i b g' i' [= _ <- _]. reflexivity. Qed.
Lemma same_fuel {A} : same (fun _ _ => @CFuel A). Proof. intros g i b g' i' E. discriminate. Qed.
Ltac sm := repeat first
  [ apply same_ret | apply same_get | apply same_put | apply same_lift | apply same_opt | apply same_ns | apply same_fresh | apply same_fuel
  | apply same_when | (apply same_upd; intros ?; reflexivity) | (apply same_bind; [|intros ?])
  | match goal with |- same (match ?x with _ => _ end) => destruct x end | match goal with |- same (if ?x then _ else _) => destruct x end
  | match goal with |- same (let '(_, _) := ?x in _) => destruct x end ].
Ltac gr := repeat first
  [ assumption | (apply same_grows; progress sm; fail) | (apply grows_bind; [|intros ?])
  | match goal with |- grows (match ?x with _ => _ end) => destruct x end | match goal with |- grows (when ?x _) => destruct x; unfold when end ].
Lemma same_new ty a t : same (new_action ty a t). Proof. unfold new_action. sm. Qed.
Lemma same_nxt : same nxt. Proof. apply same_lift. Qed.
Lemma same_enum_loop name f : same (enum_loop name f).
Proof. induction f as [|f IH]; cbn [enum_loop]; [sm|]. apply same_bind; [sm|intros i]. destruct (teq (tk i) ";"); [sm|]. repeat (apply same_bind; [unfold nxt; sm|intros ?]). exact IH. Qed.
Lemma same_enum o prefix : same (assign_enum_action o prefix).
Proof.
  unfold assign_enum_action. apply same_bind; [sm|intros i]. apply same_bind; [unfold nxt; sm|intros k]. apply same_bind; [sm|intros i2]. apply same_bind; [unfold nxt; sm|intros _].
  apply same_bind; [sm|intros i3]. apply same_bind; [unfold skip_set; sm|intros _]. apply same_bind; [sm|intros i4]. apply same_when. apply same_bind; [sm|intros _]. apply same_bind; [apply same_enum_loop|intros _]. apply same_new.
Qed.
Lemma numbered_length prefix O ns : numbered prefix O ns -> length O = length ns.
Proof. induction 1; [reflexivity|]. rewrite !app_length. cbn. lia. Qed.
Section Growth.
  Variable o : opts.
  Variable pc : bool -> tok -> tok -> C (list act).
  Hypothesis PC : forall b p t, grows (pc b p t).
  Lemma grows_typedef prefix : grows (parse_typedef pc prefix).
  Proof.
    unfold parse_typedef, get_typedef_name, skip_set, skip_tok, nxt. apply grows_bind; [apply same_grows; sm|intros _]. apply grows_bind; [apply same_grows; sm|intros mark].
    destruct (teq (tk mark) "struct" || teq (tk mark) "class")%bool.
    - apply grows_bind; [apply same_grows; sm|intros _]. apply grows_bind; [apply same_grows; sm|intros i]. apply grows_bind; [apply same_grows; sm|intros _]. apply grows_bind; [apply same_grows; sm|intros i2].
      destruct (teq (tk i2) ";"); [apply same_grows; sm|]. apply grows_bind; [apply same_grows; sm|intros nm]. apply grows_bind; [apply same_grows; sm|intros name].
      apply grows_bind; [apply same_grows; sm|intros _]. apply grows_bind; [apply same_grows; sm|intros _]. apply grows_bind; [apply PC|intros acts]. apply same_grows. apply same_bind; [sm|intros _]. apply same_new.
    - apply same_grows. destruct (teq (tk mark) "union"); [|sm]. apply same_bind; [sm|intros nm]. apply same_bind; [sm|intros i]. destruct nm; apply same_new.
  Qed.
  Lemma grows_class prefix targs classargs pr : grows (assign_class_action pc prefix targs classargs pr).
  Proof.
    unfold assign_class_action, nxt. apply grows_bind; [apply same_grows; sm|intros i]. apply grows_bind; [apply same_grows; sm|intros _]. apply grows_bind; [apply same_grows; sm|intros i2].
    apply grows_bind; [apply same_grows; sm|intros name]. apply grows_bind; [apply same_grows; sm|intros name2]. apply grows_bind; [apply same_grows; sm|intros i3].
    destruct (strchr ":{" (first (tk i3))); [|apply same_grows; sm]. apply grows_bind; [apply PC|intros acts]. apply same_grows. apply same_bind; [|intros _; sm].
    destruct (negb pr && negb (has_lt prefix))%bool; [|sm]. apply same_bind; [sm|intros s]. apply same_when, same_new.
  Qed.

  (** ** One turn *)
  Variable prefix targs : tok.
  Definition inv (V : list (tok * msig)) (g : glob) (l : loc) : Prop :=
    exists X O ns, g_over g = V ++ X /\ subseq (map (pair prefix) O) X /\ woven (l_acts l) O /\ numbered prefix O ns
      /\ forall p, In p (combine O ns) -> (snd p <= N.of_nat (countb (bs "." ++ s_name (fst p)) (l_num l)))%N.
  Definition keeps (s : loc -> C flow) : Prop := forall V l g i f g' i', s l g i = COk f g' i' -> inv V g l -> inv V g' (loc_of f).
  (** stages that only add members that name no temporary *)
  Definition adds (l l' : loc) : Prop := l_num l' = l_num l /\ (l_acts l' = l_acts l \/ exists a, plain_act a /\ l_acts l' = l_acts l ++ [a]).
  Lemma sub_app {A} (a b c : list A) : subseq a b -> subseq a (b ++ c).
  Proof. induction 1; cbn [app]; [apply sub_nil|now apply sub_skip|now apply sub_take]. Qed.
  Lemma sub_snoc {A} (a b : list A) x : subseq a b -> subseq (a ++ [x]) (b ++ [x]).
  Proof.
    induction 1 as [l|y l m H IH|y l m H IH]; cbn [app]; [|now apply sub_skip|now apply sub_take].
    induction l as [|y l IH]; cbn [app]; [apply sub_take, sub_nil|now apply sub_skip].
  Qed.
  Lemma inv_grow V g g' l X : inv V g l -> g_over g' = g_over g ++ X -> inv V g' l.
  Proof. intros (Y & O & ns & E & SU & W) G. exists (Y ++ X), O, ns. split; [now rewrite G, E, app_assoc|]. split; [now apply sub_app|exact W]. Qed.
  Lemma inv_adds V g l l' : inv V g l -> adds l l' -> inv V g l'.
  Proof.
    intros (Y & O & ns & E & SU & W & NU & CN) (EN & EA). exists Y, O, ns. split; [exact E|]. split; [exact SU|]. split; [|split; [exact NU|now rewrite EN]].
    destruct EA as [->|(a & PA & ->)]; [exact W|]. now constructor.
  Qed.
  Definition gpost {A} (m : C A) (P : A -> Prop) : Prop := forall g i a g' i', m g i = COk a g' i' -> P a.
  Lemma gp_bind {A B} (m : C A) (k : A -> C B) (P : B -> Prop) : (forall a, gpost (k a) P) -> gpost (cbind m k) P.
  Proof. intros K g i b g' i' E. unfold cbind in E. destruct (m g i); try discriminate. eapply K; eauto. Qed.
  Lemma gp_bind2 {A B} (m : C A) (k : A -> C B) (Q : A -> Prop) (P : B -> Prop) : gpost m Q -> (forall a, Q a -> gpost (k a) P) -> gpost (cbind m k) P.
  Proof. intros M K g i b g' i' E. unfold cbind in E. destruct (m g i) eqn:EM; try discriminate. eapply K; eauto. Qed.
  Lemma gp_ret {A} (a : A) (P : A -> Prop) : P a -> gpost (cret a) P.
  Proof. intros H g i b g' i' [= <- _ _]. exact H. Qed.
  Lemma keeps_of s : (forall l, gpost (s l) (fun f => adds l (loc_of f))) -> (forall l, grows (s l)) -> keeps s.
  Proof. intros P G V l g i f g' i' E I0. destruct (G _ _ _ _ _ _ E) as (X & EX). eapply inv_adds; [eapply inv_grow; eauto|]. eapply P; eauto. Qed.
  Lemma adds_refl l : adds l l. Proof. split; auto. Qed.
  Lemma adds_reg l n m action : plain_start action -> adds l (register_class n m action l).
  Proof.
    intros P. unfold register_class. destruct (r_priv l); [split; auto|]. split; [reflexivity|]. right. eexists. split; [|reflexivity].
    destruct (r_static l && r_const l)%bool; [right|left]; cbn [a_action]; eauto.
  Qed.
  Ltac gp := repeat first [ (apply gp_ret; first [apply adds_refl | (split; [reflexivity|left; reflexivity])]) | (apply gp_bind; intros ?)
    | match goal with |- gpost (match ?x with _ => _ end) _ => destruct x end ].
  Lemma k_label : keeps (t_label o). Proof. apply keeps_of; intros l; [unfold t_label; gp|apply same_grows; unfold t_label, gobb; sm]. Qed.
  Lemma k_template : keeps t_template. Proof. apply keeps_of; intros l; [unfold t_template; gp|apply same_grows; unfold t_template, nxt; sm]. Qed.
  Lemma k_using : keeps t_using. Proof. apply keeps_of; intros l; [unfold t_using; gp|apply same_grows; unfold t_using, skip_tok; sm]. Qed.
  Lemma k_typedef : keeps (t_typedef pc prefix).
  Proof.
    apply keeps_of; intros l; unfold t_typedef; [gp|]. apply grows_bind; [apply same_grows; sm|intros mark]. destruct (teq (tk mark) "typedef"); [|apply same_grows; sm].
    apply grows_bind; [apply same_grows; sm|intros _]. apply grows_bind; [apply same_grows; sm|intros i]. apply grows_bind; [apply same_grows; sm|intros _]. apply grows_bind; [apply same_grows; sm|intros _].
    apply grows_bind; [apply grows_typedef|intros _]. apply same_grows. unfold skip_tok. sm.
  Qed.
  Lemma k_class : keeps (t_class pc prefix targs).
  Proof.
    apply keeps_of; intros l; unfold t_class; [gp|]. apply grows_bind; [apply same_grows; sm|intros i]. destruct (teq (tk i) "class" || teq (tk i) "struct")%bool; [|apply same_grows; sm].
    apply grows_bind; [apply same_grows, same_nxt|intros _]. apply grows_bind; [apply same_grows; sm|intros i2]. apply grows_bind; [apply same_grows; sm|intros _]. apply grows_bind; [apply same_grows; sm|intros _].
    apply grows_bind; [|intros _; apply same_grows; sm]. destruct (idt (tk i2)); [apply grows_class|apply same_grows; sm].
  Qed.
  Lemma k_enum : keeps (t_enum o prefix).
  Proof.
    apply keeps_of; intros l; unfold t_enum; [gp|]. apply same_grows. apply same_bind; [sm|intros i]. destruct (teq (tk i) "enum"); [|sm]. apply same_bind; [apply same_nxt|intros _]. apply same_bind; [sm|intros i2].
    apply same_bind; [|intros _; sm]. destruct (negb (l_priv l) && idt (tk i2))%bool; [apply same_enum|unfold gobb; sm].
  Qed.
  Lemma k_union : keeps t_union.
  Proof.
    apply keeps_of; intros l; unfold t_union; [|apply same_grows; unfold gobb, skip_tok; sm]. gp. apply gp_ret. cbn [loc_of]. destruct (idt (tk1 a2)); [|apply adds_refl].
    apply adds_reg. eexists "classdesc::is_array(),"%string, _. split; [cbn; tauto|]. change (bs "classdesc::is_array(),(char&)(arg.") with (bs "classdesc::is_array()," ++ bs "(char&)(arg."). rewrite <- app_assoc. reflexivity.
  Qed.
  Lemma k_scalar : keeps (t_scalar o prefix).
  Proof.
    apply keeps_of; intros l; unfold t_scalar; [|apply same_grows; unfold gobb, skip_set; sm]. apply gp_bind; intros i. destruct (strchr "{;,:=" (first (tk i)) && negb (teq (tk i) "::"))%bool; [|gp].
    apply gp_bind; intros _. apply gp_bind; intros _. apply gp_ret. cbn [loc_of]. destruct (idt (tk1 i)); [|apply adds_refl]. destruct (use_mbr o && negb (teq (tk2 i) "&"))%bool; apply adds_reg; eexists _, _; (split; [|reflexivity]); cbn; tauto.
  Qed.
  Lemma k_operator : keeps t_operator. Proof. apply keeps_of; intros l; unfold t_operator; [gp|apply same_grows; unfold gobb, skip_set, skip_paren, nxt; sm]. Qed.
  Lemma k_flags : keeps t_flags.
  Proof. apply keeps_of; intros l; unfold t_flags; [|apply same_grows; unfold gobb, skip_tok, nxt; sm]. apply gp_bind; intros i. apply gp_bind; intros _. apply gp_bind; intros i2. apply gp_bind; intros _. apply gp_ret. cbn [loc_of].
    destruct (teq (tk i2) "static"), (teq (tk i2) "const"); split; auto. Qed.
  Lemma k_array : keeps t_array.
  Proof.
    apply keeps_of; intros l; unfold t_array; [|apply same_grows; sm]. apply gp_bind; intros i. destruct (teq (tk i) "["); [|gp]. apply gp_bind; intros (d, a2). apply gp_ret. cbn [loc_of]. apply adds_reg.
    exists "classdesc::is_array(),"%string, (skipn 22 (firstn (length (bs "classdesc::is_array(),arg." ++ tk1 i ++ repeat_str d (bs "[0]") ++ bs "," ++ dec (N.of_nat d) ++ a2) - 1) (bs "classdesc::is_array(),arg." ++ tk1 i ++ repeat_str d (bs "[0]") ++ bs "," ++ dec (N.of_nat d) ++ a2))).
    split; [cbn; tauto|]. set (R := tk1 i ++ repeat_str d (bs "[0]") ++ bs "," ++ dec (N.of_nat d) ++ a2). change (bs "classdesc::is_array(),arg." ++ R) with (bs "classdesc::is_array()," ++ bs "arg." ++ R).
    assert (L : (length (bs "classdesc::is_array()," ++ bs "arg." ++ R) - 1 = 22 + (3 + length R))%nat) by (rewrite !app_length; change (length (bs "classdesc::is_array(),")) with 22%nat; change (length (bs "arg.")) with 4%nat; lia).
    rewrite L. generalize (3 + length R)%nat. intros n. generalize (bs "arg." ++ R). intros T. reflexivity.
  Qed.
  Lemma k_brace : keeps t_brace. Proof. apply keeps_of; intros l; unfold t_brace; [gp|apply same_grows; unfold gobb; sm]. Qed.
  Lemma k_return : keeps t_return.
  Proof. apply keeps_of; intros l; unfold t_return; [gp|apply same_grows; unfold gobb; sm]. Qed.
  Hypothesis OV : overloading o = true.
  Definition hoare {A} (R : glob -> Prop) (m : C A) (Q : A -> glob -> Prop) : Prop := forall g i a g' i', R g -> m g i = COk a g' i' -> Q a g'.
  Lemma h_bind {A B} (R : glob -> Prop) (m : C A) (S0 : A -> glob -> Prop) (k : A -> C B) (Q : B -> glob -> Prop) : hoare R m S0 -> (forall a, hoare (S0 a) (k a) Q) -> hoare R (cbind m k) Q.
  Proof. intros M K g i b g' i' R0 E. unfold cbind in E. destruct (m g i) eqn:EM; try discriminate. eapply K; [|exact E]. eapply M; eauto. Qed.
  Lemma h_ret {A} (R : glob -> Prop) (a : A) (Q : A -> glob -> Prop) : (forall g, R g -> Q a g) -> hoare R (cret a) Q.
  Proof. intros H g i b g' i' R0 [= <- <- _]. auto. Qed.
  Lemma h_same {A} V l (m : C A) : same m -> hoare (fun g => inv V g l) m (fun _ g => inv V g l).
  Proof. intros H g i b g' i' R0 E. apply H in E. eapply inv_grow; [exact R0|]. rewrite E. symmetry. apply app_nil_r. Qed.
  Lemma countb_snoc x l y : countb x (l ++ [y]) = (countb x l + if beq x y then 1 else 0)%nat.
  Proof. unfold countb. rewrite filter_app, app_length. cbn [filter]. destruct (beq x y); reflexivity. Qed.
  Lemma inv_num V g l n : inv V g l -> inv V g (w_num (l_num l ++ [n]) l).
  Proof.
    intros (X & O & ns & E & SU & W & NU & CN). exists X, O, ns. repeat (split; [assumption|]). intros p IN. specialize (CN p IN). cbn [l_num w_num]. rewrite countb_snoc. lia.
  Qed.
  Lemma in_combine_snoc {A B} (a : list A) (b : list B) x y p : length a = length b -> In p (combine (a ++ [x]) (b ++ [y])) -> In p (combine a b) \/ p = (x, y).
  Proof.
    revert b. induction a as [|a0 a IH]; intros [|b0 b] L; try discriminate; cbn [app combine In]; [intros [H|[]]; auto|]. intros [H|H]; [auto|]. destruct (IH b) as [K|K]; auto.
  Qed.
  (** a member function is registered with its temporary *)
  Lemma inv_temp V g l mn r a ty m : inv V g l -> r_priv l = false ->
    let l1 := w_num (l_num l ++ [bs "." ++ mn]) l in
    let tmp := bs "TmpMemPtr_" ++ mn ++ dec (N.of_nat (countb (bs "." ++ mn) (l_num l1))) in
    inv V (add_over (prefix, Sig tmp r a prefix mn ty) g) (register_class mn m ((match ty with TCtor => bs "classdesc::is_constructor()," | _ => [] end) ++ tmp) (w_ret r l1)).
  Proof.
    intros (X & O & ns & E & SU & W & NU & CN) RP. cbv zeta. cbn [l_num w_num]. set (n := countb (bs "." ++ mn) (l_num l ++ [bs "." ++ mn])).
    assert (EN : n = S (countb (bs "." ++ mn) (l_num l))) by (unfold n; rewrite countb_snoc, beq_refl; lia). clearbody n.
    set (s := Sig (bs "TmpMemPtr_" ++ mn ++ dec (N.of_nat n)) r a prefix mn ty).
    exists (X ++ [(prefix, s)]), (O ++ [s]), (ns ++ [N.of_nat n]). split; [cbn [g_over add_over]; now rewrite E, app_assoc|]. split; [rewrite map_app; now apply sub_snoc|]. split.
    - unfold register_class. cbn [r_static r_const r_priv w_ret w_num]. rewrite RP. cbn [l_acts w_static w_acts w_ret w_num]. constructor; [exact W|].
      destruct (r_static l && r_const l)%bool; (split; [reflexivity|]); cbn [a_action]; [exists (bs "classdesc::is_const_static(),")|exists []]; (split; [tauto|reflexivity]).
    - split.
      + constructor; [exact NU|reflexivity|reflexivity|]. intros p IN EQ. specialize (CN p IN). cbn [s_name s] in EQ. rewrite EQ in CN. rewrite EN. lia.
      + intros p IN. unfold register_class. cbn [r_static r_const r_priv w_ret w_num]. rewrite RP. cbn [l_num w_static w_acts w_ret w_num]. rewrite countb_snoc.
        destruct (in_combine_snoc _ _ _ _ _ (numbered_length _ _ _ NU) IN) as [K| ->]; [specialize (CN p K); lia|]. cbn [fst snd s_name s]. rewrite beq_refl. lia.
  Qed.
  Lemma same_args mn : same (fn_args mn).
  Proof. unfold fn_args, nxt, gobb, skip_paren. sm. Qed.
  Lemma k_function : keeps (t_function o prefix).
  Proof.
    intros V l g i f g' i' E I0. revert g i f g' i' I0 E. change (hoare (fun g => inv V g l) (t_function o prefix l) (fun f g' => inv V g' (loc_of f))).
    unfold t_function. eapply h_bind; [apply h_same; sm|]. intros i. cbv beta. destruct (ceq (first (tk i)) "("); [|apply h_ret; auto].
    eapply h_bind; [apply h_same, same_args|]. intros (mn, al). cbv beta. eapply h_bind; [apply h_same; sm|]. intros (isc, del). cbv beta.
    apply h_bind with (S0 := fun l' g => inv V g l').
    2: { intros l'. apply h_ret. intros g I0. cbn [loc_of]. eapply inv_adds; [exact I0|]. split; [reflexivity|left; reflexivity]. }
    destruct (idt mn); [|apply h_ret; auto]. cbv zeta. cbn [r_static l_templ w_num].
    set (ty := if (beq mn (class_part prefix) && negb (teq (tk2 i) "~"))%bool then TCtor else if r_static l then TStatic else if isc then TConst else TNone).
    destruct ((negb match ty with TCtor => true | _ => false end || overloading o) && negb (teq (tk2 i) "~") && negb (l_templ l) && negb del && negb (teq mn "CLASSDESC_ACCESS") && negb (teq mn "CLASSDESC_ACCESS_TEMPLATE"))%bool.
    2: { apply h_ret. intros g I0. now apply inv_num. }
    eapply h_bind; [apply h_same; sm|]. intros (r, a). cbv beta iota. rewrite OV. cbn [andb]. cbn [r_priv w_num].
    destruct (r_priv l) eqn:RP; cbn [negb].
    - eapply h_bind; [apply h_same; sm|]. intros []. cbv beta. apply h_ret. intros g I0. unfold register_class. cbn [r_static r_const r_priv w_ret w_num]. rewrite RP.
      eapply inv_adds; [apply (inv_num V g l (bs "." ++ mn) I0)|]. split; [reflexivity|left; reflexivity].
    - intros g j l' g' j' I0 E. unfold cbind, when, upd, cret in E. injection E as <- <- _. pose proof (inv_temp V g l mn r a ty (if r_static (w_ret r (w_num (l_num l ++ [bs "." ++ mn]) l)) then [] else bs "arg") I0 RP) as H. cbv zeta in H.
      clearbody ty. destruct ty; exact H.
  Qed.
  Lemma k_turn : keeps (turn o pc prefix targs).
  Proof.
    unfold turn. assert (G : forall ss, Forall keeps ss -> keeps (run_stages ss)).
    { induction ss as [|s ss IH]; intros F V l g i f g' i' E I0; cbn [run_stages] in E.
      - injection E as <- <- _. exact I0.
      - inversion F as [|? ? K1 K2]; subst. unfold fbind, cbind in E. destruct (s l g i) as [f1 g1 i1|g1| |] eqn:E1; try discriminate. specialize (K1 _ _ _ _ _ _ _ E1 I0).
        destruct f1 as [l1|l1]; [eapply (IH K2); eauto|]. injection E as <- <- _. exact K1. }
    apply G. unfold stages. repeat constructor; first [apply k_label|apply k_typedef|apply k_template|apply k_using|apply k_class|apply k_enum|apply k_union|apply k_scalar|apply k_operator|apply k_flags|apply k_function|apply k_array|apply k_brace|apply k_return].
  Qed.
  Lemma inv_members V f : forall l g i l' g' i', members o pc prefix targs f l g i = COk l' g' i' -> inv V g l -> inv V g' l'.
  Proof.
    induction f as [|f IH]; intros l g i l' g' i' E I0; cbn [members] in E; [discriminate|]. unfold cbind at 1 in E. destruct (nxt g i) as [u g1 i1| | |] eqn:N; try discriminate. apply same_nxt in N.
    unfold cbind at 1, get in E. assert (I1 : inv V g1 l) by (eapply inv_grow; [exact I0|]; rewrite N; symmetry; apply app_nil_r). clear N I0.
    destruct (teq (tk i1) "}"); [injection E as <- <- _; exact I1|]. unfold cbind in E. destruct (turn o pc prefix targs l g1 i1) as [x g2 i2| | |] eqn:T; try discriminate.
    eapply IH; [exact E|]. eapply k_turn; eauto.
  Qed.
End Growth.
Lemma bases_plain o is_class targs f : forall acts pr b i acts' pr' i', bases o is_class targs f acts pr b i = POk (acts', pr') i' -> (exists O, woven acts O /\ O = []) -> woven acts' [].
Proof.
  induction f as [|f IH]; intros acts pr b i acts' pr' i' E (O & W & EO); cbn [bases] in E; [discriminate|]. subst O.
  destruct (teq (tk i) "virtual"). { unfold pbind in E. destruct (next i); try discriminate. eapply IH; eauto. }
  destruct (teq (tk i) ":" || teq (tk i) "private" || teq (tk i) "protected" || teq (tk i) "public")%bool. { unfold pbind in E. destruct (next i); try discriminate. eapply IH; eauto. }
  unfold pbind at 1 in E. destruct (if teq (tk i) "<" then base_angle (pbound i) 0 b i else POk b i) as [b1 i1| |]; try discriminate. cbv zeta in E.
  assert (W2 : woven (if (strchr ",{" (first (tk i1)) && negb (beq b1 []) && (negb (respect_private o) || negb pr))%bool then acts ++ [base_act o targs b1] else acts) []).
  { match goal with |- woven (if ?x then _ else _) _ => destruct x end; [|exact W]. constructor; [exact W|]. left. unfold base_act. cbn [a_action]. eexists "classdesc::base_cast<"%string, _. split; [cbn; tauto|reflexivity]. }
  destruct (teq (tk i1) "{"); [injection E as <- _ _; exact W2|]. unfold pbind in E. destruct (next i1); try discriminate. eapply IH; eauto.
Qed.
Lemma class_inv o f : overloading o = true -> (forall b p t, grows (parse_class o f b p t)) -> forall is_class prefix targs g i acts g' i',
  parse_class o (S f) is_class prefix targs g i = COk acts g' i' ->
  exists X O ns, g_over g' = g_over g ++ X /\ subseq (map (pair prefix) O) X /\ woven acts O /\ numbered prefix O ns.
Proof.
  intros OV PC is_class prefix targs g i acts g' i' E. cbn [parse_class] in E. unfold cbind at 1 in E. destruct (lift _ g i) as [(ba, pr) g1 i1| | |] eqn:L; try discriminate.
  unfold lift in L. destruct (bases o is_class targs (pbound i) [] is_class [] i) as [(ba', pr') i0| |] eqn:B; try discriminate. injection L as -> -> <- ->.
  apply bases_plain in B; [|exists []; split; [constructor|reflexivity]]. unfold cbind at 1, get in E. unfold cbind in E.
  match type of E with match ?m with _ => _ end = _ => destruct m as [l g2 i2| | |] eqn:M; try discriminate end. injection E as <- <- <-.
  apply (inv_members o (parse_class o f) PC prefix targs OV (g_over g)) in M.
  - destruct M as (X & O & ns & E & SU & W & NU & _). exists X, O, ns. unfold prune. rewrite OV. auto.
  - exists [], [], []. rewrite app_nil_r. split; [reflexivity|]. split; [constructor|]. split; [exact B|]. split; [constructor|]. intros p [].
Qed.
Lemma class_grows o f : overloading o = true -> forall b p t, grows (parse_class o f b p t).
Proof.
  intros OV. induction f as [|f IH]; intros b p t g i a g' i' E; [discriminate|]. destruct (class_inv o f OV IH _ _ _ _ _ _ _ _ E) as (X & _ & _ & EX & _). eauto.
Qed.
(** every class, in every stream of tokens *)
Theorem C81_temporaries : forall o f is_class prefix targs g i acts g' i', overloading o = true -> parse_class o f is_class prefix targs g i = COk acts g' i' ->
  exists X O ns, g_over g' = g_over g ++ X /\ subseq (map (pair prefix) O) X /\ woven acts O /\ numbered prefix O ns.
Proof.
  intros o f is_class prefix targs g i acts g' i' OV E. destruct f as [|f]; [discriminate|]. eapply class_inv; eauto. now apply class_grows.
Qed.
Print Assumptions C81_temporaries.

(** the temporaries of a class are distinct, when no member is named like another with digits added *)
Definition isdig (c : ascii) : Prop := (48 <= N_of_ascii c <= 57)%N.
Lemma numbered_in prefix O ns s : numbered prefix O ns -> In s O -> exists n, In (s, n) (combine O ns) /\ s_decl s = bs "TmpMemPtr_" ++ s_name s ++ dec n /\ s_prefix s = prefix.
Proof.
  intros NU. assert (L := NU). apply numbered_length in L. induction NU as [|t n O ns NU IH D P LT]; intros IN; [destruct IN|].
  assert (L1 := numbered_length _ _ _ NU). apply in_app_or in IN. destruct IN as [IN|[<-|[]]].
  - destruct (IH L1 IN) as (m & I1 & R). exists m. split; [|exact R]. clear - I1 L1. revert ns I1 L1. induction O as [|a O IHO]; intros [|b ns] I1 L1; try discriminate; [destruct I1|]. cbn [app combine In] in *. destruct I1; [auto|right; apply IHO; auto].
  - exists n. split; [|auto]. clear - L1. revert ns L1. induction O as [|a O IHO]; intros [|b ns] L1; try discriminate; cbn [app combine In]; [auto|right; apply IHO; auto].
Qed.
Theorem C81_distinct : forall prefix O ns, numbered prefix O ns ->
  (forall s t d, In s O -> In t O -> s_name s = s_name t ++ d -> Forall isdig d -> d = []) -> NoDup (map s_decl O).
Proof.
  intros prefix O ns NU. induction NU as [|s n O ns NU IH D P LT]; intros H; [constructor|]. rewrite map_app. cbn [map].
  assert (NI : ~ In (s_decl s) (map s_decl O)).
  { intros IN. apply in_map_iff in IN. destruct IN as (t & ET & IN). destruct (numbered_in _ _ _ t NU IN) as (m & IC & DT & _). rewrite DT, D in ET. apply app_inv_head in ET.
    assert (LT' := LT _ IC). cbn [fst snd] in LT'. assert (IS : In s (O ++ [s])) by (apply in_or_app; right; left; reflexivity). assert (IT : In t (O ++ [s])) by (apply in_or_app; left; exact IN).
    assert (SP : (exists d, s_name t = s_name s ++ d /\ dec n = d ++ dec m) \/ (exists d, s_name s = s_name t ++ d /\ dec m = d ++ dec n)).
    { clear - ET. revert ET. generalize (s_name t) (s_name s) (dec m) (dec n). intros a b x y. revert b. induction a as [|c a IH]; intros [|d b] E; cbn [app] in E; [left; exists []; auto|right; exists (d :: b); auto|left; exists (c :: a); auto|].
      injection E as -> E. destruct (IH b E) as [(e & -> & E2)|(e & -> & E2)]; [left|right]; exists e; auto. }
    assert (DG : forall d x y, dec x = d ++ dec y -> Forall isdig d). { intros d x y E. pose proof (dec_isdigit x) as F. rewrite E in F. apply Forall_app in F. exact (proj1 F). }
    destruct SP as [(d & EN & ED)|(d & EN & ED)].
    - assert (d = []) by (eapply H; [exact IT|exact IS|exact EN|eapply DG; exact ED]). subst d. rewrite app_nil_r in EN. apply dec_inj in ED. specialize (LT' EN). lia.
    - assert (d = []) by (eapply H; [exact IS|exact IT|exact EN|eapply DG; exact ED]). subst d. rewrite app_nil_r in EN. apply dec_inj in ED. specialize (LT' (eq_sym EN)). lia. }
  assert (ND : NoDup (map s_decl O)). { apply IH. intros a b d IA IB. apply H; apply in_or_app; auto. }
  clear - NI ND. induction (map s_decl O) as [|x l IHl]; cbn [app]; [constructor; [intros []|constructor]|]. inversion ND; subst. constructor.
  - intros X. apply in_app_or in X. destruct X as [X|[X|[]]]; [auto|]. apply NI. left. exact (eq_sym X).
  - apply IHl; [intros X; apply NI; right; exact X|assumption].
Qed.
Print Assumptions C81_distinct.
(** so each temporary has its one declaration, and each declaration its one member *)
Theorem C81_one : forall acts O prefix ns, woven acts O -> numbered prefix O ns ->
  (forall s t d, In s O -> In t O -> s_name s = s_name t ++ d -> Forall isdig d -> d = []) ->
  forall a, In a acts -> plain_act a \/ exists O1 s O2, O = O1 ++ s :: O2 /\ act_for s a /\ forall t, In t (O1 ++ O2) -> s_decl t <> s_decl s.
Proof.
  intros acts O prefix ns W NU H a IN. assert (ND := C81_distinct prefix O ns NU H). assert (X : plain_act a \/ exists s, In s O /\ act_for s a).
  { clear - W IN. induction W as [|b l O W IH P|b s l O W IH P]; [destruct IN|..]; apply in_app_or in IN; destruct IN as [IN|[<-|[]]]; auto.
    - destruct (IH IN) as [K|(t & IT & A)]; [auto|]. right. exists t. split; [apply in_or_app; auto|exact A].
    - right. exists s. split; [apply in_or_app; right; left; reflexivity|exact P]. }
  destruct X as [P|(s & IS & A)]; [auto|]. right. apply in_split in IS. destruct IS as (O1 & O2 & ->). exists O1, s, O2. split; [reflexivity|]. split; [exact A|].
  intros t IT E. rewrite map_app in ND. cbn [map] in ND. apply NoDup_remove_2 in ND. apply ND. rewrite <- E, <- map_app. now apply in_map.
Qed.
Print Assumptions C81_one.

(** ** Examples *)
Definition over_opts : opts := Opts false false false true false.
Definition decls (g : glob) := map (fun p => (shown (fst p), shown (s_decl (snd p)), shown (s_name (snd p)))) (g_over g).
Definition members (g : glob) := map (fun a => map (fun b => (shown (a_name b), shown (a_action b))) (x_acts a)) (g_actions g).
Definition the_struct := "{ void f(int x); int a; int f(double y) {return 1;} static void g(); void h() const; S(int z); }; "%string.
(** the class of the example meets the hypotheses of [C81_temporaries] and of [C81_one] *)
Example C81_ex : exists f i acts g' i', overloading over_opts = true /\ i = Inp (bs "struct") (bs "S") (bs "{") (tl (scan the_struct))
  /\ parse_class over_opts f false (bs "::S::") [] g0 i = COk acts g' i'
  /\ decls g' = [("::S::", "TmpMemPtr_f1", "f"); ("::S::", "TmpMemPtr_f2", "f"); ("::S::", "TmpMemPtr_g1", "g"); ("::S::", "TmpMemPtr_h1", "h"); ("::S::", "TmpMemPtr_S1", "S")]%string
  /\ map (fun b => (shown (a_name b), shown (a_action b))) acts
     = [(".f", "TmpMemPtr_f1"); (".a", "arg.a"); (".f", "TmpMemPtr_f2"); (".g", "TmpMemPtr_g1"); (".h", "TmpMemPtr_h1"); (".S", "classdesc::is_constructor(),TmpMemPtr_S1")]%string.
Proof. eexists 20%nat, _, _, _, _. split; [reflexivity|]. split; [reflexivity|]. split; [vm_compute; reflexivity|]. split; vm_compute; reflexivity. Qed.
(** a member f1 and eleven members f: one declaration twice, in one class without any error in it *)
Theorem C81_clash_refuted : exists g s t, of_text over_opts "struct S { void f1(); void f(int a0); void f(int a1); void f(int a2); void f(int a3); void f(int a4); void f(int a5); void f(int a6); void f(int a7); void f(int a8); void f(int a9); void f(int a10); }; " = Some g
  /\ nth_error (g_over g) 0 = Some (bs "::S::", s) /\ nth_error (g_over g) 11 = Some (bs "::S::", t)
  /\ shown (declare s) = " void(::S::*TmpMemPtr_f11)()=&::S::f1;"%string /\ shown (declare t) = " void(::S::*TmpMemPtr_f11)(int a10 )=&::S::f;"%string.
Proof. eexists _, _, _. split; [vm_compute; reflexivity|]. split; [vm_compute; reflexivity|]. split; [vm_compute; reflexivity|]. split; vm_compute; reflexivity. Qed.
Print Assumptions C81_clash_refuted.
(** a class defined in both branches of a condition: the declarations of both stand together *)
Theorem C81_branches_refuted : exists g s t, of_text over_opts "
#if A
struct S { void f(int x); };
#else
struct S { void f(long x); };
#endif
" = Some g /\ g_over g = [(bs "::S::", s); (bs "::S::", t)] /\ s_decl s = s_decl t.
Proof. eexists _, _, _. split; [vm_compute; reflexivity|]. split; [reflexivity|]. vm_compute; reflexivity. Qed.
Print Assumptions C81_branches_refuted.

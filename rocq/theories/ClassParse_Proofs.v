(** * Termination of the parser *)
From Verif Require Import Base SMap Dec Desc_Model Tok_Model Parse_Model ClassParse_Model.

Definition len_i (i : inp) : nat := length (more i).
(** ends with at most [n] tokens to come, and does not run out of fuel *)
Definition pok {A} (n : nat) (r : pres A) : Prop :=
  match r with POk _ j => (len_i j <= n)%nat | PEof => True | PFuel => False end.
Lemma pok_mono {A} n n' (r : pres A) : pok n r -> (n <= n')%nat -> pok n' r.
Proof. destruct r; cbn; intros; auto. lia. Qed.
Lemma pok_bind {A B} n n' (r : pres A) (k : A -> inp -> pres B) :
  pok n r -> (forall a j, (len_i j <= n)%nat -> pok n' (k a j)) -> pok n' (pbind r k).
Proof. destruct r; cbn; auto. Qed.
(** one token fewer *)
Lemma next_ok {B} n' i (k : unit -> inp -> pres B) :
  (forall j, (len_i j < len_i i)%nat -> pok n' (k tt j)) -> pok n' (pbind (next i) k).
Proof.
  intros H. unfold next. destruct (more i) eqn:E; cbn; [auto|]. apply H. unfold len_i. cbn. rewrite E. cbn. lia.
Qed.
Lemma gob_ok l r ts : forall t1 t c acc, pok (length ts) (gob l r ts t1 t c acc).
Proof.
  induction ts as [|u m IH]; intros; cbn [gob]; [exact Logic.I|].
  assert (W : forall t1 t c acc, pok (S (length m)) (gob l r m t1 t c acc)) by (intros; eapply pok_mono; [apply IH|lia]).
  cbv zeta. destruct (beq u r && _)%bool; [cbn; unfold len_i; cbn; lia|].
  destruct (teq u ">>" && _)%bool; [|apply W].
  match goal with |- context [(?a <=? 0)%Z] => destruct (a <=? 0)%Z end; [cbn; unfold len_i; cbn; lia|apply W].
Qed.
Lemma gobble_ok l r i : pok (len_i i) (gobble l r i).
Proof. unfold gobble. destruct (beq _ _); [cbn; lia|]. apply gob_ok. Qed.
Lemma skipdef_ok f : forall i, (len_i i < f)%nat -> pok (len_i i) (skipdef f i).
Proof.
  induction f as [|f IH]; intros i L; [lia|]. cbn [skipdef].
  destruct (strchr _ _); [cbn; lia|].
  apply pok_bind with (n := len_i i).
  - destruct (ceq _ _); [|cbn; lia]. apply pok_bind with (n := len_i i); [apply gobble_ok|]. intros _ j J. cbn. lia.
  - intros _ j J. apply next_ok. intros j' J'. eapply pok_mono; [apply IH; lia|lia].
Qed.
Lemma gta_ok f : forall ac t i, (len_i i < f)%nat -> pok (len_i i) (gta f ac t i).
Proof.
  induction f as [|f IH]; intros ac t i L; [lia|]. cbn [gta].
  apply pok_bind with (n := len_i i).
  - destruct (ceq _ _); [|cbn; lia]. apply skipdef_ok. unfold pbound, len_i. lia.
  - intros _ j J. cbv zeta. apply next_ok. intros j' J'.
    match goal with |- context [(?a =? 0)%Z] => destruct (a =? 0)%Z end; [cbn; lia|].
    eapply pok_mono; [apply IH; lia|lia].
Qed.
Lemma template_ok i : pok (len_i i) (get_template_args i).
Proof. apply gta_ok. unfold pbound, len_i. lia. Qed.
Ltac loop1 := intros; match goal with IH : context [(_ < _)%nat -> _] |- _ =>
  apply next_ok; intros; (eapply pok_mono; [apply IH; lia|lia]) end.
Lemma skip_to_ok t f : forall i, (len_i i < f)%nat -> pok (len_i i) (skip_to t f i).
Proof. induction f as [|f IH]; intros i L; [lia|]. cbn [skip_to]. destruct (teq _ _); [cbn; lia|]. loop1. Qed.
Lemma skipset_ok t f : forall i, (len_i i < f)%nat -> pok (len_i i) (skipset t f i).
Proof. induction f as [|f IH]; intros i L; [lia|]. cbn [skipset]. destruct (strchr _ _); [cbn; lia|]. loop1. Qed.
Lemma skipparen_ok f : forall i, (len_i i < f)%nat -> pok (len_i i) (skipparen f i).
Proof. induction f as [|f IH]; intros i L; [lia|]. cbn [skipparen]. destruct (ceq _ _); [cbn; lia|]. loop1. Qed.
Lemma enum_val_ok f : forall i, (len_i i < f)%nat -> pok (len_i i) (enum_val f i).
Proof. induction f as [|f IH]; intros i L; [lia|]. cbn [enum_val]. destruct (_ || _)%bool; [cbn; lia|]. loop1. Qed.
Lemma base_angle_ok f : forall ac b i, (len_i i < f)%nat -> pok (len_i i) (base_angle f ac b i).
Proof. induction f as [|f IH]; intros ac b i L; [lia|]. cbn [base_angle]. destruct (_ || _)%bool; [|cbn; lia]. cbv zeta. loop1. Qed.
Lemma bases_ok o ic targs f : forall acts pr b i, (len_i i < f)%nat -> pok (len_i i) (bases o ic targs f acts pr b i).
Proof.
  induction f as [|f IH]; intros acts pr b i L; [lia|]. cbn [bases].
  destruct (teq _ _); [loop1|]. destruct (_ || _)%bool; [loop1|].
  apply pok_bind with (n := len_i i).
  - destruct (teq _ _); [|cbn; lia]. apply base_angle_ok. unfold pbound, len_i. lia.
  - intros b' j J. cbv zeta. destruct (teq _ "{"); [cbn; lia|]. apply next_ok. intros.
    eapply pok_mono; [apply IH; lia|lia].
Qed.
Lemma td_skip_ok f : forall i, (len_i i < f)%nat -> pok (len_i i) (td_skip f i).
Proof.
  induction f as [|f IH]; intros i L; [lia|]. cbn [td_skip]. destruct (teq _ ";"); [cbn; lia|].
  apply pok_bind with (n := len_i i).
  - destruct (teq _ _); [|cbn; lia]. apply pok_bind with (n := len_i i); [apply gobble_ok|]. intros _ j J. cbn. lia.
  - intros _ j J. apply next_ok. intros. eapply pok_mono; [apply IH; lia|lia].
Qed.
Lemma fn_tail_ok f : forall c d i, (len_i i < f)%nat -> pok (len_i i) (fn_tail f c d i).
Proof. induction f as [|f IH]; intros c d i L; [lia|]. cbn [fn_tail]. destruct (strchr _ _); [cbn; lia|]. loop1. Qed.
Lemma arr_in_ok f : forall a i, (len_i i < f)%nat -> pok (len_i i) (arr_in f a i).
Proof. induction f as [|f IH]; intros a i L; [lia|]. cbn [arr_in]. destruct (teq _ _); [cbn; lia|]. loop1. Qed.
Lemma arr_dims_ok f : forall d a i, (len_i i < f)%nat -> pok (len_i i) (arr_dims f d a i).
Proof.
  induction f as [|f IH]; intros d a i L; [lia|]. cbn [arr_dims]. destruct (teq _ _); [|cbn; lia].
  apply next_ok. intros j J. apply pok_bind with (n := len_i j); [apply arr_in_ok; unfold pbound, len_i; lia|].
  intros a' j' J'. apply next_ok. intros. eapply pok_mono; [apply IH; lia|lia].
Qed.
Lemma tdname_ok f : forall p i, (len_i i < f)%nat -> pok (len_i i) (tdname f p i).
Proof.
  induction f as [|f IH]; intros p i L; [lia|]. cbn [tdname]. destruct (teq _ ";"); [cbn; lia|].
  apply pok_bind with (n := len_i i).
  - destruct (teq _ _); [|cbn; lia]. apply pok_bind with (n := len_i i); [apply gobble_ok|]. intros _ j J. cbn. lia.
  - intros _ j J. cbv zeta. apply next_ok. intros. eapply pok_mono; [apply IH; lia|lia].
Qed.
Lemma td_echo_ok f : forall n a i, (len_i i < f)%nat -> pok (len_i i) (td_echo f n a i).
Proof. induction f as [|f IH]; intros n a i L; [lia|]. cbn [td_echo]. destruct (_ && _)%bool; [cbn; lia|]. cbv zeta. loop1. Qed.
Lemma qualified_ok f : forall n i, (len_i i < f)%nat -> pok (len_i i) (qualified f n i).
Proof.
  induction f as [|f IH]; intros n i L; [lia|]. cbn [qualified]. destruct (teq _ _); [|cbn; lia].
  apply next_ok. intros. cbv zeta. apply next_ok. intros. eapply pok_mono; [apply IH; lia|lia].
Qed.
Lemma enter_ok ns marks i : pok (len_i i) (enter ns marks i).
Proof.
  unfold enter. destruct (teq _ _); [|cbn; lia]. apply next_ok. intros j J.
  destruct (teq _ "{"); [cbn; lia|]. cbv zeta. apply next_ok. intros j' J'.
  destruct (teq _ "=").
  - apply pok_bind with (n := len_i j'); [apply skip_to_ok; unfold pbound, len_i; lia|]. intros. cbn. lia.
  - destruct (teq _ "{"); [|cbn; lia].
    apply pok_bind with (n := len_i j'); [apply gobble_ok|]. intros. cbn. lia.
Qed.

(** started with at most [n] tokens to come, does the same *)
Definition safe {A} (n : nat) (m : C A) : Prop := forall g i, (len_i i <= n)%nat ->
  match m g i with COk _ _ j => (len_i j <= n)%nat | CFuel => False | _ => True end.
Lemma safe_bind {A B} n (m : C A) (k : A -> C B) : safe n m -> (forall a, safe n (k a)) -> safe n (cbind m k).
Proof.
  intros M K g i L. specialize (M g i L). unfold cbind. destruct (m g i) as [a g' j| | |]; auto. now apply K.
Qed.
Lemma safe_ret {A} n (a : A) : safe n (cret a).
Proof. intros g i L. cbn. exact L. Qed.
Lemma safe_get {B} n (k : inp -> C B) : (forall j, (len_i j <= n)%nat -> safe n (k j)) -> safe n (cbind get k).
Proof. intros H g i L. cbn. now apply H. Qed.
Lemma safe_put n i : (len_i i <= n)%nat -> safe n (put i).
Proof. intros H g j _. cbn. exact H. Qed.
Lemma safe_upd n f : safe n (upd f).
Proof. intros g i L. exact L. Qed.
Lemma safe_opt {A} n (x : option A) : safe n (opt x).
Proof. intros g i L. unfold opt. destruct x; auto. Qed.
Lemma safe_lift {A} n (f : inp -> pres A) : (forall i, pok (len_i i) (f i)) -> safe n (lift f).
Proof. intros H g i L. unfold lift. specialize (H i). destruct (f i); cbn in *; auto. lia. Qed.
Lemma safe_nxt n : safe n nxt.
Proof. apply safe_lift. intros i. unfold next. destruct (more i) eqn:E; cbn; auto. unfold len_i. rewrite E. cbn. lia. Qed.
Lemma safe_ns n : safe n get_ns.
Proof. intros g i L. exact L. Qed.
Lemma safe_when n b m : safe n m -> safe n (when b m).
Proof. unfold when. destruct b; auto using safe_ret. Qed.
Lemma safe_new_action n a b c : safe n (new_action a b c).
Proof. unfold new_action. apply safe_bind; [apply safe_ns|]. intros. apply safe_upd. Qed.
Lemma safe_gobb n l r : safe n (gobb l r).
Proof. apply safe_lift. intros. apply gobble_ok. Qed.
Ltac bnd := intros; unfold pbound, len_i; lia.
Lemma safe_skip_set n s : safe n (skip_set s).
Proof. apply safe_lift. intros. apply skipset_ok. bnd. Qed.
Lemma safe_skip_tok n s : safe n (skip_tok s).
Proof. apply safe_lift. intros. apply skip_to_ok. bnd. Qed.
Lemma safe_skip_paren n : safe n skip_paren.
Proof. apply safe_lift. intros. apply skipparen_ok. bnd. Qed.

(** the bound is what is to come now *)
Lemma safe_sharp {B} n (k : inp -> C B) : (forall j, (len_i j <= n)%nat -> safe (len_i j) (k j)) -> safe n (cbind get k).
Proof.
  intros H g i L. specialize (H i L g i (le_n _)). unfold cbind, get. destruct (k i g i); auto. lia.
Qed.
(** one token fewer *)
Lemma safe_dec {A} n (m : C A) : (forall n', (n' < n)%nat -> safe n' m) -> safe n (nxt ;- m).
Proof.
  intros H g i Li. unfold cbind, nxt, lift, next. destruct (more i) as [|t l] eqn:E; [exact Logic.I|].
  assert (Li' : len_i i = S (length l)) by (unfold len_i; rewrite E; reflexivity).
  specialize (H (length l) ltac:(lia) g (Inp (tk1 i) (tk i) t l) (le_n _)).
  destruct (m g _); auto. lia.
Qed.

Ltac safe1 :=
  match goal with
  | |- safe _ (cbind get _) => apply safe_get; intros ? ?; cbv beta zeta
  | |- safe _ (cbind _ _) => apply safe_bind; [|intros ?; cbv beta zeta]
  | |- safe _ (cret _) => apply safe_ret
  | |- safe _ (put _) => apply safe_put; unfold len_i in *; cbn [more]; lia
  | |- safe _ (upd _) => apply safe_upd
  | |- safe _ (opt _) => apply safe_opt
  | |- safe _ nxt => apply safe_nxt
  | |- safe _ get_ns => apply safe_ns
  | |- safe _ fresh_name => intros ? ? ?; assumption
  | |- safe _ (when _ _) => apply safe_when
  | |- safe _ (new_action _ _ _) => apply safe_new_action
  | |- safe _ (gobb _ _) => apply safe_gobb
  | |- safe _ (skip_set _) => apply safe_skip_set
  | |- safe _ (skip_tok _) => apply safe_skip_tok
  | |- safe _ skip_paren => apply safe_skip_paren
  | |- safe _ (lift get_template_args) => apply safe_lift; apply template_ok
  | |- safe _ (lift _) => apply safe_lift; intros ?;
       first [apply td_skip_ok; bnd | apply fn_tail_ok; bnd | apply arr_dims_ok; bnd | apply tdname_ok; bnd
             | apply td_echo_ok; bnd | apply qualified_ok; bnd | apply enum_val_ok; bnd | apply bases_ok; bnd | apply enter_ok]
  | |- safe _ (if ?b then _ else _) => destruct b
  | |- safe _ (match ?x with _ => _ end) => destruct x
  end.
Lemma enum_loop_safe name f : forall n, (n < f)%nat -> safe n (enum_loop name f).
Proof.
  induction f as [|f IH]; intros n L; [lia|]. cbn [enum_loop].
  safe1. safe1; [safe1|]. safe1; [repeat safe1|]. safe1; [repeat safe1|].
  (* the last: one token fewer *)
  apply safe_dec. intros m M. apply IH. lia.
Qed.
Lemma enum_safe o p n : safe n (assign_enum_action o p).
Proof.
  unfold assign_enum_action. safe1. safe1; [repeat safe1|]. safe1. safe1; [safe1|]. safe1. safe1; [repeat safe1|].
  apply safe_sharp. intros j2 J2. safe1. safe1; [safe1|]. safe1; [|safe1]. apply enum_loop_safe. bnd.
Qed.
Lemma safe_fbind n m k : safe n m -> (forall l, safe n (k l)) -> safe n (fbind m k).
Proof. intros. unfold fbind. apply safe_bind; [assumption|]. intros [l|l]; [auto|apply safe_ret]. Qed.

Section TurnSafe.
  Variables (o : opts) (pc : bool -> tok -> tok -> C (list act)) (prefix targs : tok) (n : nat).
  Hypothesis PC : forall m b p t, (m <= n)%nat -> safe m (pc b p t).
  Lemma typedef_safe p : safe n (parse_typedef pc p).
  Proof. unfold parse_typedef, get_typedef_name. repeat (safe1 || (apply PC; lia)). Qed.
  Lemma assign_safe p t c b : safe n (assign_class_action pc p t c b).
  Proof. unfold assign_class_action. repeat (safe1 || (apply PC; lia)). Qed.
  Lemma fn_args_safe mn : safe n (fn_args mn).
  Proof. unfold fn_args. repeat safe1. Qed.
  Lemma turn_safe l : safe n (turn o pc prefix targs l).
  Proof.
    unfold turn, stages. cbn [run_stages].
    repeat (apply safe_fbind; [|intros ?]).
    all: cbn [run_stages].
    all: unfold t_label, t_typedef, t_template, t_using, t_class, t_enum, t_union, t_scalar, t_operator, t_flags,
      t_function, t_array, t_brace, t_return.
    all: repeat (safe1 || apply typedef_safe || apply assign_safe || apply fn_args_safe || apply enum_safe).
  Qed.
End TurnSafe.
Lemma members_safe o pc prefix targs f : forall n l, (n < f)%nat ->
  (forall m b p t, (m < n)%nat -> safe m (pc b p t)) -> safe n (members o pc prefix targs f l).
Proof.
  induction f as [|f IH]; intros n l L PC; [lia|]. cbn [members]. apply safe_dec. intros m M.
  safe1. safe1; [safe1|]. safe1.
  - apply turn_safe. intros. apply PC. lia.
  - apply IH; [lia|]. intros. apply PC. lia.
Qed.
Lemma parse_class_safe o f : forall n b p t, (n < f)%nat -> safe n (parse_class o f b p t).
Proof.
  induction f as [|f IH]; intros n b p t L; [lia|]. cbn [parse_class].
  safe1; [safe1|]. destruct a as [acts pr]. apply safe_sharp. intros j J. safe1; [|safe1].
  apply members_safe; [bnd|]. intros. apply IH. lia.
Qed.
Lemma pcls_safe o n b p t : safe n (pcls o b p t).
Proof.
  intros g i L. unfold pcls. 
  pose proof (parse_class_safe o (pbound i) (len_i i) b p t ltac:(bnd) g i (le_n _)) as H.
  destruct (parse_class o (pbound i) b p t g i); auto. lia.
Qed.
Lemma mloop_safe o f : forall n targs marks, (n < f)%nat -> safe n (mloop o f targs marks).
Proof.
  induction f as [|f IH]; intros n targs marks L; [lia|]. cbn [mloop]. apply safe_dec. intros m M.
  safe1. safe1; [safe1; [safe1|]; safe1; [safe1|]; apply IH; lia|]. safe1.
  - unfold m_namespace. repeat safe1.
  - safe1; [|apply IH; lia]. unfold m_decl, m_class, m_enum.
    repeat (safe1 || (apply typedef_safe; intros; apply pcls_safe) || (apply assign_safe; intros; apply pcls_safe) || apply enum_safe).
Qed.

(** * C102: names of types *)
From Verif Require Import Base SMap Dec Rest_Model TypeName_Model.

(** ** specification: types whose names tell everything about them *)
Definition delim : list ascii := list_ascii_of_string "<>,*&[]".
Definition clean (w : list ascii) : Prop := Forall (fun c => ~ In c delim) w.
(** a word: what may stand before the brackets *)
Definition word (w : list ascii) : Prop := w <> [] /\ clean w /\ firstn 6 w <> bs "const ".
Definition ints : list (list ascii * (bool * isz)) :=
  flat_map (fun u => map (fun s => (integralTypeName u s, (u, s))) [S1; S2; S4; S8; S16]) [false; true].
Definition heads1 : list (list ascii * c1) :=
  map (fun k => (head1 k, k)) [KShared; KAuto; KUnique; KWeak; KVector; KList; KDeque; KSet; KMultiset; KUSet; KUMultiset; KEnumH; KExclude].
Definition heads2 : list (list ascii * c2) := map (fun k => (head2 k, k)) [KMap; KMultimap; KPair; KUMap; KUMultimap].
Definition core (t : cty) : Prop :=
  match t with CNamed _ | CInt _ _ | C1 _ _ _ | C2 _ _ _ _ | CStdArr _ _ | CTmpl _ _ => True | _ => False end.
(** no const pointers, rvalue references, functions, iterators, non-default comparisons or allocators,
    and no class called like one of the templates or integral types above *)
Fixpoint plain (t : cty) : Prop :=
  match t with
  | CNamed w => word w /\ ~ In w (map fst ints)
  | CInt _ _ => True
  | CConst t => core t /\ plain t
  | CPtr t | CRef t | CArr _ t | CStdArr _ t => plain t
  | C1 _ t o => plain t /\ o = 0%nat
  | C2 _ a b o => plain a /\ plain b /\ o = 0%nat
  | CTmpl w args => word w /\ args <> [] /\ ~ In w (map fst heads1) /\ ~ In w (map fst heads2) /\ w <> bs "std::array"
      /\ (fix all (l : list cty) : Prop := match l with [] => True | a :: l' => plain a /\ all l' end) args
  | CRRef _ | CFun _ | CStdFun _ | CIter _ => False
  end.

(** ** reading names *)
Inductive suf := SP | SR | SA (d : list ascii).
Inductive g := G (c : bool) (w : list ascii) (args : list g) (s : list suf).
Definition psuf (s : suf) : list ascii := match s with SP => bs "*" | SR => bs "&" | SA d => bs "[" ++ d ++ bs "]" end.
Fixpoint print (x : g) : list ascii :=
  let '(G c w args s) := x in
  (if c then bs "const " else []) ++ w ++
  match args with
  | [] => []
  | _ :: _ => bs "<" ++ (fix go (l : list g) : list ascii :=
      match l with [] => [] | a :: l' => match l' with [] => print a | _ :: _ => print a ++ bs "," ++ go l' end end) args ++ bs ">"
  end ++ concat (map psuf s).
Fixpoint join (l : list (list ascii)) : list ascii :=
  match l with [] => [] | a :: l' => match l' with [] => a | _ :: _ => a ++ bs "," ++ join l' end end.
Lemma print_eq c w args s : print (G c w args s) = (if c then bs "const " else []) ++ w ++
  match args with [] => [] | _ :: _ => bs "<" ++ join (map print args) ++ bs ">" end ++ concat (map psuf s).
Proof.
  assert (E : forall l, (fix go (l : list g) : list ascii :=
      match l with [] => [] | a :: l' => match l' with [] => print a | _ :: _ => print a ++ bs "," ++ go l' end end) l = join (map print l)).
  { induction l as [|a l IH]; [reflexivity|]. cbn [map join]. destruct l as [|b l]; [reflexivity|]. cbn [map]. cbn [map] in IH. now rewrite IH. }
  cbn [print]. destruct args; [reflexivity|]. rewrite E. destruct args; reflexivity.
Qed.
Lemma g_ind' (P : g -> Prop) : (forall c w args s, Forall P args -> P (G c w args s)) -> forall x, P x.
Proof. intros H. fix F 1. intros [c w args s]. apply H. induction args as [|x args IH]; constructor; [apply F|exact IH]. Qed.
Definition sufok (s : suf) : Prop := match s with SA d => ~ In "]"%char d | _ => True end.
Fixpoint wf (x : g) : Prop :=
  let '(G _ w args s) := x in
  word w /\ (fix all (l : list g) : Prop := match l with [] => True | a :: l' => wf a /\ all l' end) args /\ Forall sufok s.
Lemma wf_eq c w args s : wf (G c w args s) <-> word w /\ Forall wf args /\ Forall sufok s.
Proof.
  cbn [wf]. assert (E : forall l, (fix all (l : list g) : Prop := match l with [] => True | a :: l' => wf a /\ all l' end) l <-> Forall wf l).
  { induction l as [|a l IH]; [split; auto|]. rewrite IH. split; [intros [A B]; now constructor|intro H; inversion H; auto]. }
  now rewrite E.
Qed.
(** what may follow a name *)
Definition stop (r : list ascii) : Prop := r = [] \/ exists r', r = ","%char :: r' \/ r = ">"%char :: r'.
Definition wend (r : list ascii) : Prop := r = [] \/ exists c r', r = c :: r' /\ In c delim.

Lemma clean_split : forall w1 w2 r1 r2, clean w1 -> clean w2 -> wend r1 -> wend r2 -> w1 ++ r1 = w2 ++ r2 -> w1 = w2 /\ r1 = r2.
Proof.
  induction w1 as [|c w1 IH]; intros [|d w2] r1 r2 C1' C2' E1 E2 E.
  - auto.
  - exfalso. cbn [app] in E. inversion C2' as [|? ? N _]; subst. destruct E1 as [E1|(c & r' & E1 & I1)]; [discriminate|]. apply (f_equal (hd " "%char)) in E1. cbn [hd] in E1. now subst.
  - exfalso. cbn [app] in E. inversion C1' as [|? ? N _]; subst. destruct E2 as [E2|(d & r' & E2 & I1)]; [discriminate|]. apply (f_equal (hd " "%char)) in E2. cbn [hd] in E2. now subst.
  - cbn [app] in E. injection E as -> E. inversion C1'; inversion C2'; subst. destruct (IH w2 r1 r2) as [E3 E4]; auto. split; [now rewrite E3|exact E4].
Qed.
Lemma const_split (c1' c2' : bool) w1 w2 : word w1 -> word w2 ->
  (if c1' then bs "const " else []) ++ w1 = (if c2' then bs "const " else []) ++ w2 -> c1' = c2' /\ w1 = w2.
Proof.
  intros (_ & _ & N1) (_ & _ & N2) E. destruct c1', c2'.
  - apply app_inv_head in E. auto.
  - exfalso. apply N2. cbn [app] in E. rewrite <- E. reflexivity.
  - exfalso. apply N1. cbn [app] in E. rewrite E. reflexivity.
  - auto.
Qed.
Lemma clean_const (c : bool) w : word w -> clean ((if c then bs "const " else []) ++ w).
Proof.
  intros (_ & C & _). apply Forall_app. split; [|exact C]. destruct c; [|constructor].
  repeat (apply Forall_cons; [cbn; intuition discriminate|]). constructor.
Qed.
Lemma suf_split : forall s1 s2 r1 r2, Forall sufok s1 -> Forall sufok s2 -> stop r1 -> stop r2 ->
  concat (map psuf s1) ++ r1 = concat (map psuf s2) ++ r2 -> s1 = s2 /\ r1 = r2.
Proof.
  assert (ND : forall d1 d2 t1 t2, ~ In "]"%char d1 -> ~ In "]"%char d2 -> d1 ++ "]"%char :: t1 = d2 ++ "]"%char :: t2 -> d1 = d2 /\ t1 = t2).
  { induction d1 as [|a d1 IH]; intros [|b d2] t1 t2 N1 N2 E; cbn [app] in E.
    - injection E as ->. auto.
    - exfalso. injection E as <- _. apply N2. now left.
    - exfalso. injection E as -> _. apply N1. now left.
    - injection E as -> E. destruct (IH d2 t1 t2) as [-> ->]; auto; intro; [apply N1|apply N2]; now right. }
  induction s1 as [|x s1 IH]; intros [|y s2] r1 r2 F1 F2 E1 E2 E.
  - auto.
  - exfalso. cbn [map concat app] in E. destruct E1 as [->|(r & [->| ->])]; destruct y; discriminate.
  - exfalso. cbn [map concat app] in E. destruct E2 as [->|(r & [->| ->])]; destruct x; discriminate.
  - inversion F1 as [|? ? O1 F1']; inversion F2 as [|? ? O2 F2']; subst. cbn [map concat] in E. rewrite <- !app_assoc in E.
    assert (A : x = y /\ concat (map psuf s1) ++ r1 = concat (map psuf s2) ++ r2).
    { destruct x, y; cbn [psuf app] in E; try discriminate E; try (injection E as E; auto).
      rewrite <- !app_assoc in E. cbn [app] in E. destruct (ND _ _ _ _ O1 O2 E) as [-> E']. auto. }
    destruct A as [-> A]. destruct (IH s2 r1 r2) as [-> ->]; auto.
Qed.
Lemma suf_wend s r : stop r -> wend (concat (map psuf s) ++ r).
Proof.
  intros H. destruct s as [|x s]; cbn [map concat].
  - destruct H as [->|(r' & [->| ->])]; [now left|right; eexists _, _; split; [reflexivity|cbn; tauto]..].
  - right. destruct x; cbn [psuf app]; eexists _, _; (split; [reflexivity|cbn; tauto]).
Qed.
(** a name can be read in one way only *)
Lemma print_inj : forall x y r1 r2, wf x -> wf y -> stop r1 -> stop r2 -> print x ++ r1 = print y ++ r2 -> x = y /\ r1 = r2.
Proof.
  induction x as [c w args s IH] using g_ind'. intros [c' w' args' s'] r1 r2 W1 W2 E1 E2 E.
  apply wf_eq in W1 as (A1 & B1 & D1). apply wf_eq in W2 as (A2 & B2 & D2). rewrite !print_eq, <- !app_assoc in E.
  rewrite (app_assoc _ w), (app_assoc _ w') in E.
  apply clean_split in E as [E F]; [|apply clean_const; assumption|apply clean_const; assumption| |].
  2:{ destruct args; cbn [app]; [apply suf_wend; exact E1|right; eexists _, _; split; [reflexivity|cbn; tauto]]. }
  2:{ destruct args'; cbn [app]; [apply suf_wend; exact E2|right; eexists _, _; split; [reflexivity|cbn; tauto]]. }
  apply const_split in E as [-> ->]; auto.
  assert (SW : forall s r q, stop r -> concat (map psuf s) ++ r <> "<"%char :: q).
  { intros s0 r q [->|(r' & [->| ->])] H; destruct s0 as [|z s0]; cbn [map concat app] in H; try discriminate; destruct z; discriminate. }
  destruct args as [|a args], args' as [|a' args'].
  - cbn [app] in F. destruct (suf_split s s' r1 r2) as [-> ->]; auto.
  - exfalso. cbn [app] in F. eapply (SW s r1); [exact E1|exact F].
  - exfalso. cbn [app] in F. eapply (SW s' r2); [exact E2|symmetry; exact F].
  - cbn [app] in F. injection F as F. rewrite <- !app_assoc in F. cbn [app] in F.
    assert (J : forall l l' q q', l <> [] -> l' <> [] -> Forall (fun x => forall y r1 r2, wf x -> wf y -> stop r1 -> stop r2 -> print x ++ r1 = print y ++ r2 -> x = y /\ r1 = r2) l ->
       Forall wf l -> Forall wf l' -> join (map print l) ++ ">"%char :: q = join (map print l') ++ ">"%char :: q' -> l = l' /\ q = q').
    { clear. induction l as [|x l IHl]; intros [|y l'] q q' N N' HF W W' E; try congruence. clear N N'.
      inversion HF as [|? ? P1 P2]; inversion W as [|? ? Q1 Q2]; inversion W' as [|? ? R1 R2]; subst. cbn [map join] in E.
      destruct l as [|x2 l], l' as [|y2 l']; cbn [map] in E.
      - destruct (P1 y _ _ Q1 R1 ltac:(right; eexists; right; reflexivity) ltac:(right; eexists; right; reflexivity) E) as [-> F]. injection F as ->. auto.
      - exfalso. rewrite <- !app_assoc in E. destruct (P1 y _ (bs "," ++ _) Q1 R1 ltac:(right; eexists; right; reflexivity) ltac:(right; eexists; left; reflexivity) E) as [_ F]. discriminate F.
      - exfalso. rewrite <- !app_assoc in E. destruct (P1 y (bs "," ++ _) _ Q1 R1 ltac:(right; eexists; left; reflexivity) ltac:(right; eexists; right; reflexivity) E) as [_ F]. discriminate F.
      - rewrite <- !app_assoc in E. destruct (P1 y (bs "," ++ _) (bs "," ++ _) Q1 R1 ltac:(right; eexists; left; reflexivity) ltac:(right; eexists; left; reflexivity) E) as [-> F].
        cbn [app] in F. injection F as F. destruct (IHl (y2 :: l') q q') as [-> ->]; auto; discriminate. }
    destruct (J (a :: args) (a' :: args') _ _ ltac:(discriminate) ltac:(discriminate) IH B1 B2 F) as [K L]. rewrite K.
    destruct (suf_split s s' r1 r2) as [-> ->]; auto.
Qed.

(** ** from types to readings and back *)
Definition addsuf (x : g) (s : suf) : g := let '(G c w a l) := x in G c w a (l ++ [s]).
Definition setc (x : g) : g := let '(G _ w a l) := x in G true w a l.
Fixpoint to_g (t : cty) : g :=
  match t with
  | CNamed w => G false w [] []
  | CInt u s => G false (integralTypeName u s) [] []
  | CConst t => setc (to_g t)
  | CPtr t => addsuf (to_g t) SP
  | CRef t => addsuf (to_g t) SR
  | CArr n t => addsuf (to_g t) (SA (dec n))
  | C1 k t _ => G false (head1 k) [to_g t] []
  | C2 k a b _ => G false (head2 k) [to_g a; to_g b] []
  | CStdArr n t => G false (bs "std::array") [to_g t; G false (dec n) [] []] []
  | CTmpl w args => G false w (map to_g args) []
  | _ => G false [] [] []
  end.
Fixpoint find {A} (w : list ascii) (l : list (list ascii * A)) : option A :=
  match l with [] => None | (v, a) :: l' => if list_eq_dec ascii_dec v w then Some a else find w l' end.
Definition put (t : cty) (s : suf) : cty :=
  match s with SP => CPtr t | SR => CRef t | SA d => CArr (value d 0) t end.
Fixpoint from_g (x : g) : cty :=
  let '(G c w args s) := x in
  let t := match args with
           | [] => match find w ints with Some (u, z) => CInt u z | None => CNamed w end
           | [a] => match find w heads1 with Some k => C1 k (from_g a) 0 | None => CTmpl w [from_g a] end
           | [a; b] => match find w heads2 with
                       | Some k => C2 k (from_g a) (from_g b) 0
                       | None => if list_eq_dec ascii_dec w (bs "std::array")
                                 then CStdArr (value (let '(G _ d _ _) := b in d) 0) (from_g a)
                                 else CTmpl w [from_g a; from_g b]
                       end
           | l => CTmpl w (map from_g l)
           end in
  fold_left put s (if c then CConst t else t).
Lemma find_none {A} w (l : list (list ascii * A)) : ~ In w (map fst l) -> find w l = None.
Proof.
  induction l as [|[v a] l IH]; intro H; [reflexivity|]. cbn [find map fst In] in *. destruct (list_eq_dec ascii_dec v w); [tauto|]. apply IH. tauto.
Qed.
Lemma cty_ind' (P : cty -> Prop) :
  (forall w, P (CNamed w)) -> (forall u s, P (CInt u s)) -> (forall t, P t -> P (CConst t)) -> (forall t, P t -> P (CPtr t)) ->
  (forall t, P t -> P (CRef t)) -> (forall t, P t -> P (CRRef t)) -> (forall n t, P t -> P (CArr n t)) -> (forall k t o, P t -> P (C1 k t o)) ->
  (forall k a b o, P a -> P b -> P (C2 k a b o)) -> (forall n t, P t -> P (CStdArr n t)) -> (forall w l, Forall P l -> P (CTmpl w l)) ->
  (forall i, P (CFun i)) -> (forall i, P (CStdFun i)) -> (forall i, P (CIter i)) -> forall t, P t.
Proof.
  intros H1 H2 H3 H4 H5 H6 H7 H8 H9 H10 H11 H12 H13 H14. fix F 1. intros [w|u s|t|t|t|t|n t|k t o|k a b o|n t|w l|i|i|i];
    [apply H1|apply H2|apply H3, F|apply H4, F|apply H5, F|apply H6, F|apply H7, F|apply H8, F|apply H9; apply F|apply H10, F| |apply H12|apply H13|apply H14].
  apply H11. induction l as [|x l IH]; constructor; [apply F|exact IH].
Qed.
Lemma all_plain l : (fix all (l : list cty) : Prop := match l with [] => True | a :: l' => plain a /\ all l' end) l <-> Forall plain l.
Proof. induction l as [|a l IH]; [split; auto|]. rewrite IH. split; [intros [A B]; now constructor|intro H; inversion H; auto]. Qed.
Lemma core_suf t : core t -> exists c w a, to_g t = G c w a [] /\ c = false.
Proof. destruct t; cbn; try tauto; intros _; eexists _, _, _; split; reflexivity. Qed.
Lemma from_addsuf x s : from_g (addsuf x s) = put (from_g x) s.
Proof. destruct x as [c w a l]. cbn [addsuf from_g]. now rewrite fold_left_app. Qed.
Lemma from_to : forall t, plain t -> from_g (to_g t) = t.
Proof.
  induction t as [w|u s|t IH|t IH|t IH|t IH|n t IH|k t o IH|k a b o IHa IHb|n t IH|w l IH|i|i|i] using cty_ind'; intro H; cbn [plain] in H; try tauto.
  - cbn [to_g from_g]. rewrite find_none by tauto. reflexivity.
  - destruct u, s; vm_compute; reflexivity.
  - destruct H as [C H]. specialize (IH H). destruct (core_suf t C) as (c & w & a & E & ->). cbn [to_g]. rewrite E in *. cbn [setc]. cbn [from_g fold_left] in *. now rewrite IH.
  - cbn [to_g]. rewrite from_addsuf, IH by exact H. reflexivity.
  - cbn [to_g]. rewrite from_addsuf, IH by exact H. reflexivity.
  - cbn [to_g]. rewrite from_addsuf, IH by exact H. cbn [put]. now rewrite value_dec.
  - destruct H as [H ->]. cbn [to_g from_g fold_left]. rewrite IH by exact H. destruct k; reflexivity.
  - destruct H as (Ha & Hb & ->). cbn [to_g from_g fold_left]. rewrite IHa, IHb by assumption. destruct k; reflexivity.
  - cbn [to_g from_g fold_left]. rewrite IH by exact H.
    change (find (bs "std::array") heads2) with (@None c2). destruct (list_eq_dec ascii_dec (bs "std::array") (bs "std::array")); [|congruence]. now rewrite value_dec.
  - destruct H as (W & NE & N1 & N2 & N3 & H). apply all_plain in H.
    assert (E : map from_g (map to_g l) = l).
    { clear - IH H. induction l as [|x l IHl]; [reflexivity|]. inversion IH; inversion H; subst. cbn [map]. f_equal; auto. }
    cbn [to_g from_g fold_left]. destruct l as [|a [|b [|c l]]]; cbn [map] in E |- *; [congruence| | |].
    + rewrite find_none by exact N1. injection E as ->. reflexivity.
    + rewrite find_none by exact N2. destruct (list_eq_dec ascii_dec w (bs "std::array")); [congruence|]. injection E as -> ->. reflexivity.
    + injection E as -> -> -> ->. reflexivity.
Qed.
Lemma digit_clean d : isdigit d -> ~ In d delim.
Proof. intros [A B] H. cbn in H. repeat (destruct H as [<-|H]; [vm_compute in A, B; congruence|]). exact H. Qed.
Lemma dec_word n : word (dec n).
Proof.
  split; [apply dec_nonempty|]. pose proof (dec_isdigit n) as D. split.
  - eapply Forall_impl; [|exact D]. intros a. apply digit_clean.
  - intro H. destruct (dec n) as [|c l] eqn:E; [discriminate|]. cbn [firstn] in H. assert (E2 : c = "c"%char) by (injection H; auto). subst c.
    inversion D as [|? ? [A B] _]; subst. vm_compute in B. congruence.
Qed.
Lemma wordb w : w <> [] -> forallb (fun c => negb (existsb (Ascii.eqb c) delim)) w = true -> (if list_eq_dec ascii_dec (firstn 6 w) (bs "const ") then true else false) = false -> word w.
Proof.
  intros NE C N. split; [exact NE|]. split.
  - apply Forall_forall. intros c I1 I2. rewrite forallb_forall in C. specialize (C c I1). apply negb_true_iff in C. assert (existsb (Ascii.eqb c) delim = true); [|congruence].
    apply existsb_exists. exists c. split; [exact I2|apply Ascii.eqb_refl].
  - destruct (list_eq_dec _ _ _); [discriminate|assumption].
Qed.
Lemma wf_add x s : wf x -> sufok s -> wf (addsuf x s).
Proof. destruct x as [c w a l]. cbn [addsuf]. rewrite !wf_eq. intros (A & B & D) O. repeat split; auto; try apply A. apply Forall_app. split; [exact D|]. constructor; auto. Qed.
Lemma plain_wf : forall t, plain t -> wf (to_g t).
Proof.
  induction t as [w|u s|t IH|t IH|t IH|t IH|n t IH|k t o IH|k a b o IHa IHb|n t IH|w l IH|i|i|i] using cty_ind'; intro H; cbn [plain] in H; try tauto; cbn [to_g].
  - apply wf_eq. repeat split; try constructor; apply H.
  - apply wf_eq. split; [|split; constructor]. destruct u, s; apply wordb; try reflexivity; discriminate.
  - destruct H as [_ H]. specialize (IH H). destruct (to_g t) as [c w a l]. cbn [setc]. rewrite wf_eq in *. exact IH.
  - apply wf_add; [auto|exact I].
  - apply wf_add; [auto|exact I].
  - apply wf_add; [auto|]. cbn [sufok]. intro X. pose proof (dec_isdigit n) as D. rewrite Forall_forall in D. specialize (D _ X). destruct D as [A B]. vm_compute in B. congruence.
  - apply wf_eq. split; [destruct k; apply wordb; try reflexivity; discriminate|]. split; [|constructor]. constructor; [apply IH; tauto|constructor].
  - apply wf_eq. split; [destruct k; apply wordb; try reflexivity; discriminate|]. split; [|constructor]. constructor; [apply IHa; tauto|]. constructor; [apply IHb; tauto|constructor].
  - apply wf_eq. split; [apply wordb; try reflexivity; discriminate|]. split; [|constructor]. constructor; [apply IH; exact H|]. constructor; [|constructor].
    apply wf_eq. split; [apply dec_word|split; constructor].
  - apply wf_eq. destruct H as (W & _ & _ & _ & _ & H). apply all_plain in H. split; [exact W|]. split; [|constructor].
    clear - IH H. induction l as [|x l IHl]; [constructor|]. inversion IH; inversion H; subst. cbn [map]. constructor; auto.
Qed.
Lemma print_add x s : print (addsuf x s) = print x ++ psuf s.
Proof. destruct x as [c w a l]. cbn [addsuf]. rewrite !print_eq, map_app, concat_app. cbn [map concat]. rewrite app_nil_r, <- !app_assoc. reflexivity. Qed.
Lemma varTn_eq l : (fix varTn (l : list cty) : list ascii :=
    match l with [] => [] | a :: l' => match l' with [] => typeName a | _ :: _ => typeName a ++ bs "," ++ varTn l' end end) l = join (map typeName l).
Proof. induction l as [|a l IH]; [reflexivity|]. cbn [map join]. destruct l as [|b l]; [reflexivity|]. cbn [map]. cbn [map] in IH. now rewrite IH. Qed.
Lemma print_to : forall t, plain t -> print (to_g t) = typeName t.
Proof.
  induction t as [w|u s|t IH|t IH|t IH|t IH|n t IH|k t o IH|k a b o IHa IHb|n t IH|w l IH|i|i|i] using cty_ind'; intro H; cbn [plain] in H; try tauto; cbn [to_g typeName].
  - rewrite print_eq. cbn [app map concat]. now rewrite app_nil_r.
  - rewrite print_eq. cbn [app map concat]. now rewrite app_nil_r.
  - destruct H as [C H]. specialize (IH H). destruct (core_suf t C) as (c & w & a & E & ->). rewrite E in *. cbn [setc]. rewrite print_eq in *. cbn [app] in IH. rewrite <- IH. reflexivity.
  - rewrite print_add, IH by exact H. reflexivity.
  - rewrite print_add, IH by exact H. reflexivity.
  - rewrite print_add, IH by exact H. reflexivity.
  - rewrite print_eq. cbn [map join concat]. rewrite IH by tauto. cbn [app]. now rewrite app_nil_r.
  - rewrite print_eq. cbn [map join concat]. rewrite IHa, IHb by tauto. cbn [app]. rewrite app_nil_r, <- !app_assoc. reflexivity.
  - rewrite print_eq. cbn [map join concat]. rewrite IH by tauto. rewrite (print_eq false (dec n) [] []). cbn [app map concat]. rewrite !app_nil_r, <- !app_assoc. reflexivity.
  - destruct H as (W & NE & _ & _ & _ & H). apply all_plain in H. rewrite varTn_eq.
    assert (E : map print (map to_g l) = map typeName l).
    { clear - IH H. induction l as [|x l IHl]; [reflexivity|]. inversion IH; inversion H; subst. cbn [map]. f_equal; auto. }
    rewrite print_eq. destruct l as [|x l]; [congruence|]. cbn [map] in E |- *. rewrite E. cbn [concat map app]. now rewrite app_nil_r.
Qed.

(** ** C102 *)
(** Different types have different names. *)
Theorem C102_injective : forall a b, plain a -> plain b -> typeName a = typeName b -> a = b.
Proof.
  intros a b A B E. rewrite <- (print_to a A), <- (print_to b B) in E.
  destruct (print_inj (to_g a) (to_g b) [] [] (plain_wf a A) (plain_wf b B)) as [F _]; [now left|now left|now rewrite !app_nil_r|].
  rewrite <- (from_to a A), <- (from_to b B), F. reflexivity.
Qed.
Print Assumptions C102_injective.
Definition t_ex : cty := CRef (CConst (C2 KMap (CNamed (bs "std::string")) (C1 KVector (CPtr (CConst (CNamed (bs "unsigned int")))) 0) 0)).
Example C102_injective_ex : plain t_ex /\ typeName t_ex = bs "const std::map<std::string,std::vector<const unsigned int*>>&".
Proof.
  split; [|vm_compute; reflexivity]. cbn. repeat split; try discriminate; try (repeat (apply Forall_cons; [cbn; intuition discriminate|]); constructor); cbn; intuition discriminate.
Qed.
(** So functions are recognised as having the same arguments exactly if they have, *)
Theorem C102_arguments : forall a b, Forall plain a -> Forall plain b -> same_args a b = true <-> a = b.
Proof.
  intros a b A B. unfold same_args. destruct (list_eq_dec (list_eq_dec ascii_dec) (map typeName a) (map typeName b)) as [E|E]; (split; [intro H|intro H]); try discriminate; try congruence.
  - clear H. revert b B E. induction a as [|x a IH]; intros [|y b] B E; try discriminate; [reflexivity|].
    inversion A; inversion B; subst. cbn [map] in E. assert (E1 : typeName x = typeName y) by (apply (f_equal (hd [])) in E; exact E).
    apply (f_equal (@tl _)) in E. cbn [tl] in E. f_equal; [apply C102_injective; auto|apply IH; auto].
Qed.
Print Assumptions C102_arguments.
Example C102_arguments_ex : Forall plain [t_ex; CInt true S4] /\ same_args [t_ex] [CInt true S4] = false.
Proof. split; [constructor; [apply C102_injective_ex|]; constructor; [exact I|constructor]|vm_compute; reflexivity]. Qed.
(** but not in general: a constant pointer and a pointer to a constant have the same name, *)
Theorem C102_const : forall t, typeName (CConst (CPtr t)) = typeName (CPtr (CConst t)).
Proof. intro t. cbn [typeName]. now rewrite app_assoc. Qed.
Print Assumptions C102_const.
(** and so have all functions, all iterators, containers with different comparisons, a type and an
    rvalue reference to it. *)
Theorem C102_same : (forall i j, typeName (CFun i) = typeName (CFun j)) /\ (forall i j, typeName (CStdFun i) = typeName (CStdFun j))
  /\ (forall i j, typeName (CIter i) = typeName (CIter j)) /\ (forall k t o o', typeName (C1 k t o) = typeName (C1 k t o'))
  /\ (forall k a b o o', typeName (C2 k a b o) = typeName (C2 k a b o')) /\ (forall t, typeName (CRRef t) = typeName t).
Proof. repeat split. Qed.
Print Assumptions C102_same.
(** So names do not determine types, and different overloads are taken for the same. *)
Theorem C102_refuted : exists a b, a <> b /\ typeName a = typeName b /\ same_args [a] [b] = true.
Proof. exists (CConst (CPtr (CNamed (bs "int")))), (CPtr (CConst (CNamed (bs "int")))). split; [discriminate|]. split; vm_compute; reflexivity. Qed.
Print Assumptions C102_refuted.
(** The dimensions of arrays of arrays are named in reverse order. *)
Definition arr (ds : list N) (t : cty) : cty := fold_right CArr t ds.
Theorem C102_arrays : forall ds t, typeName (arr ds t) = typeName t ++ concat (map (fun d => bs "[" ++ dec d ++ bs "]") (rev ds)).
Proof.
  induction ds as [|d ds IH]; intro t; cbn [arr fold_right rev map concat]; [now rewrite app_nil_r|]. fold (arr ds t). cbn [typeName].
  rewrite IH, map_app, concat_app. cbn [map concat]. rewrite app_nil_r, <- app_assoc. reflexivity.
Qed.
Print Assumptions C102_arrays.
(** [int x[2][3]] has the type written [int[2][3]] in C++; its name is that of another type. *)
Theorem C102_arrays_refuted : exists t, t = arr [2%N; 3%N] (CNamed (bs "int")) /\ typeName t = bs "int[3][2]".
Proof. eexists. split; [reflexivity|]. vm_compute. reflexivity. Qed.
Print Assumptions C102_arrays_refuted.

(** ** C103: overloaded functions in a registry *)
(** the functions a name stands for, with their signatures *)
Definition fns (e : option (entry nat (list (list ascii)))) : list (nat * list (list ascii)) :=
  match e with Some (EFun f) => [f] | Some (EOver l) => l | _ => [] end.
Notation roa := (replace_or_append nat (list (list ascii)) (list_eq_dec (list_eq_dec ascii_dec))).
Lemma fns_register : forall fs m d, fns (mfind bcmp d (register m d fs)) = fold_left (fun l f => roa (functionSignature f) l) fs (fns (mfind bcmp d m)).
Proof.
  induction fs as [|f fs IH]; intros m d; [reflexivity|]. unfold register, adds in *. cbn [map fold_left fst snd]. rewrite IH. f_equal.
  unfold add. destruct (mfind bcmp d m) as [[x|g|l]|]; cbn [add1 fns replace_or_append].
  - now rewrite (mfind_mset_same bcmp bcmp_eq).
  - destruct (list_eq_dec (list_eq_dec ascii_dec) (snd g) (snd (functionSignature f))); now rewrite (mfind_mset_same bcmp bcmp_eq).
  - now rewrite (mfind_mset_same bcmp bcmp_eq).
  - now rewrite (mfind_mset_same bcmp bcmp_eq).
Qed.
(** Overloads with different plain arguments registered under a name that stood for nothing or for an
    object are all found, in the order of registration. *)
Theorem C103_all : forall m d fs, fns (mfind bcmp d m) = [] -> Forall (fun f => Forall plain (snd f)) fs -> NoDup (map snd fs) ->
  map fst (fns (mfind bcmp d (register m d fs))) = map fst fs.
Proof.
  intros m d fs E P D. rewrite fns_register, E.
  assert (R : forall l f, (forall x, In x l -> snd x <> snd f) -> roa f l = l ++ [f]).
  { induction l as [|x l IH]; intros f H; [reflexivity|]. cbn [replace_or_append app]. destruct (list_eq_dec _ (snd x) (snd f)) as [X|_]; [exfalso; apply (H x); [now left|exact X]|].
    rewrite IH; [reflexivity|]. intros y Y. apply H. now right. }
  assert (Gn : forall fs acc, Forall (fun f => Forall plain (snd f)) (acc ++ fs) -> NoDup (map snd (acc ++ fs)) ->
    fold_left (fun l f => roa (functionSignature f) l) fs (map functionSignature acc) = map functionSignature (acc ++ fs)).
  { clear - R. induction fs as [|f fs IH]; intros acc P D; [now rewrite app_nil_r|]. cbn [fold_left]. rewrite R.
    - change [functionSignature f] with (map functionSignature [f]). rewrite <- map_app. rewrite IH by (rewrite <- app_assoc; assumption). now rewrite <- app_assoc.
    - intros x X F. apply in_map_iff in X as (y & <- & X). cbn [functionSignature snd] in F. rewrite Forall_forall in P.
      assert (A : snd y = snd f).
      { apply C102_arguments; [apply P; apply in_app_iff; now left|apply P; apply in_app_iff; right; now left|].
        unfold same_args. destruct (list_eq_dec _ _ _); congruence. }
      rewrite map_app in D. cbn [map] in D. apply NoDup_remove_2 in D. apply D. apply in_app_iff. left. rewrite <- A. now apply in_map. }
  change (fold_left (fun l f => roa (functionSignature f) l) fs []) with (fold_left (fun l f => roa (functionSignature f) l) fs (map functionSignature [])).
  rewrite Gn by assumption. cbn [app]. rewrite map_map. reflexivity.
Qed.
Print Assumptions C103_all.
Definition fs_ex : list fn := [(0, [CInt true S4]); (1, []); (2, [t_ex; CInt false S8])]%nat.
Example C103_all_ex : Forall (fun f => Forall plain (snd f)) fs_ex /\ NoDup (map snd fs_ex)
  /\ map fst (fns (mfind bcmp (bs ".f") (register [] (bs ".f") fs_ex))) = [0; 1; 2]%nat.
Proof.
  split; [|split; [|vm_compute; reflexivity]].
  - constructor; [constructor; [exact I|constructor]|]. constructor; [constructor|]. constructor; [|constructor].
    constructor; [apply C102_injective_ex|]. constructor; [exact I|constructor].
  - cbn. repeat constructor; cbn; intuition discriminate.
Qed.
(** Functions with the same arguments, e.g. a const and a non-const one, replace each other. *)
Theorem C103_replaced : forall m d f g, fns (mfind bcmp d m) = [] -> snd f = snd g -> map fst (fns (mfind bcmp d (register m d [f; g]))) = [fst g].
Proof.
  intros m d f g E F. rewrite fns_register, E. cbn [fold_left replace_or_append functionSignature snd].
  destruct (list_eq_dec (list_eq_dec ascii_dec) (map typeName (snd f)) (map typeName (snd g))); [reflexivity|congruence].
Qed.
Print Assumptions C103_replaced.
Example C103_replaced_ex : map fst (fns (mfind bcmp (bs ".f") (register [] (bs ".f") [(0, [t_ex]); (1, [t_ex])]%nat))) = [1%nat].
Proof. vm_compute. reflexivity. Qed.
(** Overloads whose arguments have different types can replace each other: [f(std::function<void()>)] and
    [f(std::function<void(int)>)]. *)
Theorem C103_refuted : exists f g : fn, snd f <> snd g /\ map fst (fns (mfind bcmp (bs ".f") (register [] (bs ".f") [f; g]))) = [fst g].
Proof. exists (0%nat, [CStdFun 0]), (1%nat, [CStdFun 1]). split; [discriminate|]. vm_compute. reflexivity. Qed.
Print Assumptions C103_refuted.

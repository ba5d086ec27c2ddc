(** * C104: what dump prints tells the values *)
From Verif Require Import Base Dec Desc_Model Desc_Props Dump_Model.

(** ** specification *)
Definition nl : ascii := "010"%char.
(** types of objects; the number of elements of C arrays is part of the type *)
Inductive ty :=
| TFund | TStr
| TNums (n : option nat) | TSeq (n : option nat) (t : ty)
| TPair (a b : ty)
| TObj (parts : list (list ascii * ty))
| TPtr (t : ty)
| TNone.
(** how numbers look *)
Definition num (s : list ascii) : Prop :=
  s <> [] /\ Forall (fun c => ~ In c [" "%char; ":"%char; nl; "]"%char]) s /\ s <> bs "null".
Definition sized {A} (n : option nat) (arr : bool) (l : list A) : Prop :=
  match n with None => arr = false | Some k => arr = true /\ length l = k end.
Fixpoint has (t : ty) (v : val) {struct t} : Prop :=
  match t, v with
  | TFund, VFund s => num s
  | TStr, VStr s => ~ In nl s
  | TNums n, VNums arr l => sized n arr l /\ Forall num l
  | TSeq n t, VSeq arr l => sized n arr l /\ Forall (has t) l
  | TPair a b, VPair x y => has a x /\ has b y
  | TObj ps, VObj qs =>
      (fix go (ps : list (list ascii * ty)) (qs : list (list ascii * val)) : Prop :=
         match ps, qs with
         | [], [] => True
         | (s, t) :: ps', (s', v) :: qs' => s = s' /\ has t v /\ go ps' qs'
         | _, _ => False
         end) ps qs
  | TPtr t, VPtr o => match o with None => True | Some x => has t x end
  | TNone, VNone => True
  | _, _ => False
  end.
Definition ident (s : list ascii) : Prop := Forall (fun c => ~ In c [dot; nul; " "%char; "{"%char; "}"%char]) s.
Definition nopair (t : ty) : Prop := match t with TPair _ _ => False | _ => True end.
Definition target (t : ty) : Prop := match t with TFund | TNums None | TSeq None _ | TObj _ => True | _ => False end.
(** the types that can be read back: numbers of a container are printed at a description with a dot
    ([top = false]); pairs are elements of containers; pointers point to numbers, containers and classes *)
Fixpoint okty (t : ty) (top : bool) : Prop :=
  match t with
  | TFund | TStr | TNone => True
  | TNums _ => top = false
  | TSeq _ t => top = false /\ okty t false
  | TPair a b => top = false /\ okty a false /\ okty b false /\ (a <> TFund -> nopair b)
  | TObj ps => (fix go (ps : list (list ascii * ty)) : Prop :=
      match ps with
      | [] => True
      | (s, t) :: ps' => (nopair t /\ ((s = [] /\ okty t top) \/ (exists n, s = dot :: n /\ ident n /\ okty t false))) /\ go ps'
      end) ps
  | TPtr t => target t /\ okty t top
  end.
(** descriptions: empty, or with a last component that begins neither with a space nor with a brace *)
Definition dgood (d : list ascii) (top : bool) : Prop :=
  if top then d = []
  else exists h t, d = h ++ [dot] ++ t /\ ~ In dot t /\ ~ In nul d /\ match t with c :: _ => c <> " "%char /\ c <> "{"%char | [] => True end.

(** ** proofs *)
Fixpoint fnb (s : list ascii) : option ascii := match s with [] => None | c :: s' => if ascii_dec c " "%char then fnb s' else Some c end.
Definition stop (r : list ascii) : Prop :=
  match r with [] => True | c :: _ => c = " "%char \/ c = ":"%char end /\ fnb r <> Some "{"%char.
Lemma fnb_repeat n s : fnb (repeat " "%char n ++ s) = fnb s.
Proof. induction n as [|n IH]; [reflexivity|]. cbn [repeat app fnb]. destruct (ascii_dec " " " "); [exact IH|congruence]. Qed.
Lemma fmt_eq d top : dgood d top -> exists n t, format d = (n, repeat " "%char n ++ t ++ bs ":") /\ (top = false -> 1 <= n)%nat /\ (top = true -> n = 0%nat /\ t = [])
   /\ match t with c :: _ => c <> " "%char /\ c <> "{"%char | [] => True end.
Proof.
  destruct top; cbn [dgood].
  - intros ->. exists 0%nat, []. repeat split; congruence.
  - intros (h & t & -> & N & NN & H). exists (ndots (h ++ [dot] ++ t)), t. rewrite C57_line by exact NN. rewrite (proj2 (C34_unique h t N)).
    split; [reflexivity|]. split; [|split; [congruence|exact H]]. intros _. unfold ndots. rewrite !count_occ_app. cbn [count_occ]. destruct (ascii_dec dot dot); [lia|congruence].
Qed.
Lemma fmt_stop d top r : dgood d top -> stop (snd (format d) ++ r).
Proof.
  intro H. destruct (fmt_eq d top H) as (n & t & E & A & B & C). rewrite E. cbn [snd]. unfold stop. rewrite <- !app_assoc, fnb_repeat. split.
  - destruct n as [|n]; cbn [repeat app]; [|now left]. destruct top; [|specialize (A eq_refl); lia]. destruct (B eq_refl) as [_ ->]. cbn [app]. now right.
  - destruct t as [|c t]; cbn [app fnb].
    + destruct (ascii_dec ":" " "); [discriminate|]. discriminate.
    + destruct C as [C1 C2]. destruct (ascii_dec c " "); [congruence|]. congruence.
Qed.
Lemma dig c : isdigit c -> c <> dot /\ c <> nul /\ c <> "{"%char /\ c <> "}"%char.
Proof. intros [A B]. repeat split; intros ->; vm_compute in A, B; congruence. Qed.
Lemma dgood_element d i : dgood d false -> dgood (element d i) false.
Proof.
  intros (h & t & -> & N & NN & H). unfold element. exists h, (t ++ bs "[" ++ dec i ++ bs "]"). split; [now rewrite <- !app_assoc|].
  assert (D : forall c, In c (bs "[" ++ dec i ++ bs "]") -> c <> dot /\ c <> nul).
  { intros c X. rewrite !in_app_iff in X. destruct X as [[<-|[]]|[X|[<-|[]]]]; try (split; discriminate).
    pose proof (dec_isdigit i) as F. rewrite Forall_forall in F. destruct (dig c (F c X)) as (A & B & _). auto. }
  split; [|split].
  - rewrite in_app_iff. intros [X|X]; [auto|]. destruct (D _ X). congruence.
  - intro X. apply in_app_iff in X as [X|X]; [auto|]. destruct (D _ X). congruence.
  - destruct t as [|c t]; [split; discriminate|exact H].
Qed.
Lemma dgood_member d top n : dgood d top -> ident n -> dgood (d ++ dot :: n) false.
Proof.
  intros H I1. unfold ident in I1. exists d, n. split; [reflexivity|]. rewrite Forall_forall in I1. split; [|split].
  - intro X. apply (I1 _ X). cbn. tauto.
  - rewrite in_app_iff. intros [X|[X|X]]; [|discriminate|apply (I1 _ X); cbn; tauto].
    destruct top; cbn [dgood] in H; [subst; contradiction|]. destruct H as (h & t & E & _ & NN & _). contradiction.
  - destruct n as [|c n]; [exact I|]. specialize (I1 c (or_introl eq_refl)). cbn in I1. split; intros ->; apply I1; tauto.
Qed.
Lemma dgood_key d : dgood d false -> dgood (bs "[." ++ d ++ bs "]=") false.
Proof.
  intros (h & t & -> & N & NN & H). exists (bs "[." ++ h), (t ++ bs "]="). split; [now rewrite <- !app_assoc|]. split; [|split].
  - rewrite in_app_iff. intros [X|[X|[X|[]]]]; [auto|discriminate..].
  - rewrite in_app_iff. intros [[X|[X|[]]]|X]; [discriminate..|]. apply in_app_iff in X as [X|[X|[X|[]]]]; [auto|discriminate..].
  - destruct t as [|c t]; [split; discriminate|exact H].
Qed.
Lemma cut (c : ascii) : forall a b r s, ~ In c a -> ~ In c b -> a ++ c :: r = b ++ c :: s -> a = b /\ r = s.
Proof.
  induction a as [|x a IH]; intros [|y b] r s N1 N2 E; cbn [app] in E.
  - injection E as ->. auto.
  - exfalso. injection E as <- _. apply N2. now left.
  - exfalso. injection E as -> _. apply N1. now left.
  - injection E as -> E. destruct (IH b r s) as [-> ->]; auto; intro; [apply N1|apply N2]; now right.
Qed.
Lemma num_not c s : num s -> In c [" "%char; ":"%char; nl; "]"%char] -> ~ In c s.
Proof. intros (_ & F & _) X Y. rewrite Forall_forall in F. exact (F c Y X). Qed.
(** a number ends at a space, a colon or the end of the line *)
Definition gap (r : list ascii) : Prop := match r with [] => True | c :: _ => In c [" "%char; ":"%char; nl; "]"%char] end.
Lemma num_cut : forall a b r s, Forall (fun c => ~ In c [" "%char; ":"%char; nl; "]"%char]) a -> Forall (fun c => ~ In c [" "%char; ":"%char; nl; "]"%char]) b ->
  gap r -> gap s -> a ++ r = b ++ s -> a = b /\ r = s.
Proof.
  induction a as [|x a IH]; intros [|y b] r s F1 F2 G1 G2 E; cbn [app] in E.
  - auto.
  - exfalso. subst r. inversion F2; subst. cbn [gap] in G1. contradiction.
  - exfalso. subst s. inversion F1; subst. cbn [gap] in G2. contradiction.
  - assert (X : x = y) by (apply (f_equal (hd " "%char)) in E; exact E). apply (f_equal (@tl _)) in E. cbn [tl] in E. inversion F1; inversion F2; subst.
    destruct (IH b r s) as [E1 E2]; auto. subst. auto.
Qed.
Lemma stop_gap r : stop r -> gap r.
Proof. intros [H _]. destruct r as [|c r]; [exact I|]. cbn. destruct H as [->| ->]; tauto. Qed.
Definition sp (m : nat) := repeat " "%char m.
Lemma nums_cut m : (1 <= m)%nat -> forall l1 l2 r1 r2, Forall num l1 -> Forall num l2 ->
  flat_map (fun x => sp m ++ x) l1 ++ nl :: r1 = flat_map (fun x => sp m ++ x) l2 ++ nl :: r2 -> l1 = l2 /\ r1 = r2.
Proof.
  intro M. assert (S0 : forall x, exists q, sp m ++ x = " "%char :: q) by (intro x; destruct m; [lia|]; eexists; reflexivity).
  induction l1 as [|a l1 IH]; intros [|b l2] r1 r2 F1 F2 E; cbn [flat_map] in E.
  - cbn [app] in E. injection E as ->. auto.
  - exfalso. rewrite <- !app_assoc in E. destruct (S0 (b ++ flat_map (fun x => sp m ++ x) l2 ++ nl :: r2)) as [q Q]. rewrite Q in E. discriminate E.
  - exfalso. rewrite <- !app_assoc in E. destruct (S0 (a ++ flat_map (fun x => sp m ++ x) l1 ++ nl :: r1)) as [q Q]. rewrite Q in E. discriminate E.
  - rewrite <- !app_assoc in E. apply app_inv_head in E. inversion F1 as [|? ? A1 A2]; inversion F2 as [|? ? B1 B2]; subst.
    assert (GG : forall l r, gap (flat_map (fun x => sp m ++ x) l ++ nl :: r)).
    { intros l r. destruct l as [|z l]; cbn [flat_map app]; [cbn; tauto|]. rewrite <- !app_assoc. destruct (S0 (z ++ flat_map (fun x => sp m ++ x) l ++ nl :: r)) as [q' Q']. rewrite Q'. cbn. tauto. }
    apply num_cut in E as [-> E]; [|apply A1|apply B1|apply GG|apply GG]. destruct (IH l2 r1 r2) as [-> ->]; auto.
Qed.

(** the loops of [dump] *)
Fixpoint elems (d : list ascii) (i : N) (l : list val) : list ascii :=
  match l with [] => [] | x :: l' => opening (fst (format d)) ++ dump (element d i) x ++ closing (fst (format d)) ++ elems d (i + 1)%N l' end.
Fixpoint pdump (d : list ascii) (l : list (list ascii * val)) : list ascii :=
  match l with [] => [] | (s, x) :: l' => dump (d ++ s) x ++ pdump d l' end.
Lemma dump_seq d arr l : dump d (VSeq arr l) = if arr && (length l =? 0)%nat then [] else snd (format d) ++ endl ++ elems d 0%N l.
Proof.
  cbn [dump]. destruct (arr && (length l =? 0)%nat); [reflexivity|]. do 2 f_equal. generalize 0%N. induction l as [|x l IH]; intro i; [reflexivity|]. cbn [elems]. now rewrite IH.
Qed.
Lemma dump_obj d ps : dump d (VObj ps) = snd (format d) ++ bs "{" ++ endl ++ pdump d ps ++ closing (fst (format d)).
Proof. cbn [dump]. do 4 f_equal. induction ps as [|[s x] ps IH]; [reflexivity|]. cbn [pdump]. now rewrite IH. Qed.
Lemma setw_fnb n c r : (1 <= n)%nat -> setw n [c] ++ r = sp (n - 1) ++ c :: r.
Proof. intro H. unfold setw, sp. cbn [length]. now rewrite <- app_assoc. Qed.
Lemma closing_stop n r : stop (closing n ++ r).
Proof.
  unfold closing. change (bs "}") with ["}"%char]. rewrite <- app_assoc, setw_fnb by lia. unfold sp. split.
  - replace (n + 2 - 1)%nat with (S n) by lia. cbn [repeat app]. now left.
  - rewrite fnb_repeat. cbn [fnb]. destruct (ascii_dec "}" " "); discriminate.
Qed.
Lemma opening_fnb n r : fnb (opening n ++ r) = Some "{"%char.
Proof. unfold opening. change (bs "{") with ["{"%char]. rewrite <- app_assoc, setw_fnb by lia. unfold sp. rewrite fnb_repeat. cbn [fnb]. destruct (ascii_dec "{" " "); [discriminate|reflexivity]. Qed.
Lemma ty_ind' (P : ty -> Prop) : P TFund -> P TStr -> (forall n, P (TNums n)) -> (forall n t, P t -> P (TSeq n t)) -> (forall a b, P a -> P b -> P (TPair a b)) ->
  (forall ps, Forall (fun p => P (snd p)) ps -> P (TObj ps)) -> (forall t, P t -> P (TPtr t)) -> P TNone -> forall t, P t.
Proof.
  intros H1 H2 H3 H4 H5 H6 H7 H8. fix F 1. intros [| |n|n t|a b|ps|t|]; [exact H1|exact H2|apply H3|apply H4, F|apply H5; apply F| |apply H7, F|exact H8].
  apply H6. induction ps as [|[s x] ps IH]; constructor; [apply F|exact IH].
Qed.
Definition hasp (ps : list (list ascii * ty)) (qs : list (list ascii * val)) : Prop := has (TObj ps) (VObj qs).
Definition okp (top : bool) (p : list ascii * ty) : Prop := nopair (snd p) /\ ((fst p = [] /\ okty (snd p) top) \/ (exists n, fst p = dot :: n /\ ident n /\ okty (snd p) false)).
Lemma okp_all ps top : okty (TObj ps) top <-> Forall (okp top) ps.
Proof. cbn [okty]. induction ps as [|[s t] ps IH]; [split; auto|]. rewrite IH. split; [intros [A B]; constructor; auto|intro X; inversion X; auto]. Qed.
(** every output except that of a pair is empty or begins with the name *)
Lemma dump_start t top d v : nopair t -> okty t top -> has t v -> dump d v = [] \/ exists q, dump d v = snd (format d) ++ q.
Proof.
  intros NP O H. destruct t; cbn [nopair] in NP; try contradiction; destruct v; cbn [has] in H; try contradiction.
  - right. eexists. reflexivity.
  - right. eexists. reflexivity.
  - cbn [dump]. destruct (arr && _); [now left|]. right. eexists. reflexivity.
  - rewrite dump_seq. destruct (arr && _); [now left|]. right. eexists. reflexivity.
  - rewrite dump_obj. right. eexists. reflexivity.
  - cbn [okty] in O. destruct O as [T O]. destruct o as [x|]; [|right; eexists; reflexivity]. cbn [dump].
    destruct t as [| |[k|]|[k|] t|a b|ps|t|]; cbn [target] in T; try contradiction; destruct x; cbn [has] in H; try contradiction.
    + right. eexists. reflexivity.
    + destruct H as [H _]. cbn in H. subst arr. right. eexists. reflexivity.
    + destruct H as [H _]. cbn in H. subst arr. rewrite dump_seq. right. eexists. reflexivity.
    + rewrite dump_obj. right. eexists. reflexivity.
  - now left.
Qed.
Lemma dump_stop t top d v r : nopair t -> okty t top -> dgood d top -> has t v -> stop r -> stop (dump d v ++ r).
Proof.
  intros NP O D H S0. destruct (dump_start t top d v NP O H) as [->|[q ->]]; [exact S0|]. rewrite <- app_assoc. eapply fmt_stop. exact D.
Qed.
Lemma sized_eq {A B} n arr arr' (l : list A) (l' : list B) : sized n arr l -> sized n arr' l' -> arr = arr' /\ (arr = true -> length l = length l').
Proof. destruct n; cbn; [intros [-> <-] [-> <-]; auto|intros -> ->; split; [reflexivity|discriminate]]. Qed.

Definition P (t : ty) : Prop := forall top d v1 v2 r1 r2, okty t top -> dgood d top -> has t v1 -> has t v2 -> stop r1 -> stop r2 ->
  dump d v1 ++ r1 = dump d v2 ++ r2 -> v1 = v2 /\ r1 = r2.
Lemma basic_cut d a b r s : ~ In nl a -> ~ In nl b -> dump_basic d a ++ r = dump_basic d b ++ s -> a = b /\ r = s.
Proof.
  intros A B E. unfold dump_basic, endl in E. rewrite <- !app_assoc in E. apply app_inv_head in E. cbn [app] in E. apply (cut nl) in E; assumption.
Qed.
Lemma P_fund : P TFund.
Proof.
  intros top d [s1| | | | | | |] [s2| | | | | | |] r1 r2 O D H1 H2 S1 S2 E; cbn [has] in H1, H2; try contradiction. cbn [dump] in E.
  apply basic_cut in E as [-> ->]; auto; apply num_not; auto; cbn; tauto.
Qed.
Lemma P_str : P TStr.
Proof.
  intros top d [|s1| | | | | |] [|s2| | | | | |] r1 r2 O D H1 H2 S1 S2 E; cbn [has] in H1, H2; try contradiction. cbn [dump] in E.
  apply basic_cut in E as [-> ->]; auto.
Qed.
Lemma nums_eq d l : dump_nums d l = snd (format d) ++ flat_map (fun x => sp (fst (format d)) ++ x) l ++ [nl].
Proof.
  unfold dump_nums, endl. do 2 f_equal. apply flat_map_ext. intro x. unfold setw, sp. cbn [length]. now rewrite Nat.sub_0_r, app_nil_r.
Qed.
Lemma P_nums n : P (TNums n).
Proof.
  intros top d [| |a1 l1| | | | |] [| |a2 l2| | | | |] r1 r2 O D H1 H2 S1 S2 E; cbn [has] in H1, H2; try contradiction. cbn [okty] in O. subst top.
  destruct H1 as [Z1 F1], H2 as [Z2 F2]. destruct (sized_eq _ _ _ _ _ Z1 Z2) as [<- L]. cbn [dump] in E.
  assert (M : (1 <= fst (format d))%nat) by (destruct (fmt_eq d false D) as (m & t & -> & A & _); apply A; reflexivity).
  assert (X : l1 = l2 /\ r1 = r2); [|destruct X as [-> ->]; auto].
  destruct (a1 && (length l1 =? 0)%nat) eqn:K1, (a1 && (length l2 =? 0)%nat) eqn:K2.
  - destruct l1, l2; try (cbn in K1, K2; rewrite ?andb_false_r in *; discriminate). auto.
  - exfalso. destruct a1; [|discriminate]. rewrite L in K1 by reflexivity. cbn in K1, K2. congruence.
  - exfalso. destruct a1; [|discriminate]. rewrite L in K1 by reflexivity. cbn in K1, K2. congruence.
  - rewrite !nums_eq, <- !app_assoc in E. apply app_inv_head in E. cbn [app] in E. apply nums_cut in E as [-> ->]; auto.
Qed.
Lemma P_seq n t : P t -> P (TSeq n t).
Proof.
  intros IH top d [| | |a1 l1| | | |] [| | |a2 l2| | | |] r1 r2 O D H1 H2 S1 S2 E; cbn [has] in H1, H2; try contradiction. cbn [okty] in O. destruct O as [-> O].
  destruct H1 as [Z1 F1], H2 as [Z2 F2]. destruct (sized_eq _ _ _ _ _ Z1 Z2) as [<- L]. rewrite !dump_seq in E.
  assert (X : l1 = l2 /\ r1 = r2); [|destruct X as [-> ->]; auto].
  destruct (a1 && (length l1 =? 0)%nat) eqn:K1, (a1 && (length l2 =? 0)%nat) eqn:K2.
  - destruct l1, l2; try (cbn in K1, K2; rewrite ?andb_false_r in *; discriminate). auto.
  - exfalso. destruct a1; [|discriminate]. rewrite L in K1 by reflexivity. cbn in K1, K2. congruence.
  - exfalso. destruct a1; [|discriminate]. rewrite L in K1 by reflexivity. cbn in K1, K2. congruence.
  - rewrite <- !app_assoc in E. apply app_inv_head in E. apply app_inv_head in E. clear - E F1 F2 IH O D S1 S2. revert l2 E F2. generalize 0%N.
    induction l1 as [|x l1 IHl]; intros i [|y l2] E F2; cbn [elems] in E.
    + auto.
    + exfalso. cbn [app] in E. rewrite <- app_assoc in E. destruct S1 as [_ S1]. apply S1. rewrite E. apply opening_fnb.
    + exfalso. cbn [app] in E. rewrite <- app_assoc in E. destruct S2 as [_ S2]. apply S2. rewrite <- E. apply opening_fnb.
    + inversion F1 as [|? ? A1 A2]; inversion F2 as [|? ? B1 B2]; subst. rewrite <- !app_assoc in E. apply app_inv_head in E.
      apply (IH false) in E as [-> E]; auto; [|now apply dgood_element|apply closing_stop|apply closing_stop].
      apply app_inv_head in E. destruct (IHl A2 (i + 1)%N l2 E B2) as [-> ->]. auto.
Qed.
Lemma P_pair a b : P a -> P b -> P (TPair a b).
Proof.
  intros IHa IHb top d v1 v2 r1 r2 O D H1 H2 S1 S2 E. cbn [okty] in O. destruct O as (-> & Oa & Ob & NP).
  destruct v1 as [| | | |x1 y1| | |]; cbn [has] in H1; try contradiction. destruct v2 as [| | | |x2 y2| | |]; cbn [has] in H2; try contradiction.
  destruct H1 as [Hx1 Hy1], H2 as [Hx2 Hy2].
  assert (Fa : a = TFund \/ a <> TFund) by (destruct a; auto; right; discriminate). destruct Fa as [->|Fa].
  - destruct x1 as [k1| | | | | | |]; cbn [has] in Hx1; try contradiction. destruct x2 as [k2| | | | | | |]; cbn [has] in Hx2; try contradiction.
    cbn [dump] in E. rewrite <- !app_assoc in E. apply app_inv_head in E. change (bs "]=") with ("]"%char :: bs "=") in E. cbn [app] in E.
    apply (cut "]"%char) in E as [-> E]; [|apply num_not; auto; cbn; tauto|apply num_not; auto; cbn; tauto]. injection E as E.
    assert (Fb : b = TFund \/ b <> TFund) by (destruct b; auto; right; discriminate). destruct Fb as [->|Fb].
    + destruct y1 as [z1| | | | | | |]; cbn [has] in Hy1; try contradiction. destruct y2 as [z2| | | | | | |]; cbn [has] in Hy2; try contradiction.
      apply num_cut in E as [-> ->]; [auto|apply Hy1|apply Hy2|now apply stop_gap|now apply stop_gap].
    + assert (NF : forall v, has b v -> match v with VFund x => x | _ => dump d v end = dump d v).
      { intros v Hv. destruct v; try reflexivity. destruct b; cbn [has] in Hv; contradiction || congruence. }
      rewrite !NF in E by assumption. apply (IHb false) in E as [-> ->]; auto.
  - assert (NF : forall x y, has a x -> dump d (VPair x y) = dump (bs "[." ++ d ++ bs "]=") x ++ dump d y).
    { intros x y Hx. destruct x; try reflexivity. destruct a; cbn [has] in Hx; contradiction || congruence. }
    rewrite !NF in E by assumption. rewrite <- !app_assoc in E. specialize (NP Fa).
    apply (IHa false) in E as [-> E]; auto; [|now apply dgood_key|eapply dump_stop; eauto|eapply dump_stop; eauto].
    apply (IHb false) in E as [-> ->]; auto.
Qed.
Lemma P_obj ps : Forall (fun p => P (snd p)) ps -> P (TObj ps).
Proof.
  intros IH top d v1 v2 r1 r2 O D H1 H2 S1 S2 E.
  destruct v1 as [| | | | |q1| |]; try contradiction. destruct v2 as [| | | | |q2| |]; try contradiction. apply okp_all in O.
  rewrite !dump_obj, <- !app_assoc in E. apply app_inv_head in E. apply app_inv_head in E. apply app_inv_head in E.
  assert (X : q1 = q2 /\ closing (fst (format d)) ++ r1 = closing (fst (format d)) ++ r2).
  2:{ destruct X as [-> X]. apply app_inv_head in X. auto. }
  assert (C1 : stop (closing (fst (format d)) ++ r1)) by apply closing_stop. assert (C2 : stop (closing (fst (format d)) ++ r2)) by apply closing_stop.
  revert E C1 C2. generalize (closing (fst (format d)) ++ r1) (closing (fst (format d)) ++ r2). clear S1 S2 r1 r2. intros r1 r2 E S1 S2.
  assert (PS : forall l q r, Forall (okp top) l -> has (TObj l) (VObj q) -> stop r -> stop (pdump d q ++ r)).
  { clear - D. induction l as [|[s t] l IHl]; intros [|[s' v] q] r F H S0; cbn [has] in H; try contradiction; [exact S0|]. destruct H as (<- & Hv & Hq). cbn [pdump].
    rewrite <- app_assoc. inversion F as [|? ? [N0 G0] F']; subst. cbn [fst snd] in *. specialize (IHl q r F' Hq S0). destruct G0 as [[-> O]|(n & -> & I1 & O)].
    - rewrite app_nil_r. eapply dump_stop; eauto.
    - eapply dump_stop; eauto. eapply dgood_member; eauto. }
  revert q1 q2 H1 H2 E. induction ps as [|[s t] ps IHp]; intros [|[s1 x1] q1] [|[s2 x2] q2] H1 H2 E; try (cbn [has] in H1, H2; contradiction).
  - auto.
  - cbn [has] in H1, H2. destruct H1 as (<- & Hx1 & Hq1), H2 as (<- & Hx2 & Hq2). inversion IH as [|? ? P1 P2]; inversion O as [|? ? [N0 G0] O']; subst. cbn [fst snd] in *.
    cbn [pdump] in E. rewrite <- !app_assoc in E.
    assert (R1 : stop (pdump d q1 ++ r1)) by (eapply PS; eauto). assert (R2 : stop (pdump d q2 ++ r2)) by (eapply PS; eauto).
    assert (Y : x1 = x2 /\ pdump d q1 ++ r1 = pdump d q2 ++ r2).
    { destruct G0 as [[-> Ot]|(n & -> & I1 & Ot)].
      - rewrite !app_nil_r in E. eapply P1; eauto.
      - eapply P1; eauto. eapply dgood_member; eauto. }
    destruct Y as [-> Y]. destruct (IHp P2 O' q1 q2 Hq1 Hq2 Y) as [-> ->]. auto.
Qed.
Lemma P_ptr t : P t -> P (TPtr t).
Proof.
  intros IH top d v1 v2 r1 r2 O D H1 H2 S1 S2 E. cbn [okty] in O. destruct O as [T O].
  destruct v1 as [| | | | | |[x1|]|]; cbn [has] in H1; try contradiction; destruct v2 as [| | | | | |[x2|]|]; cbn [has] in H2; try contradiction; cbn [dump] in E.
  - eapply IH in E as [-> ->]; eauto.
  - exfalso. assert (X : forall r1 r2, dump d x1 ++ r1 <> dump_basic d (bs "null") ++ r2); [|eapply X; exact E].
    clear E r1 r2 S1 S2. intros r1 r2 E. unfold dump_basic in E. rewrite <- !app_assoc in E.
    destruct t as [| |[k|]|[k|] t|a b|ps|t|]; cbn [target] in T; try contradiction; destruct x1 as [s| |arr l|arr l| |q| |]; cbn [has] in H1; try contradiction.
    + cbn [dump] in E. unfold dump_basic in E. rewrite <- !app_assoc in E. apply app_inv_head in E. apply (cut nl) in E as [-> _]; [destruct H1 as (_ & _ & N); now apply N|apply num_not; auto; cbn; tauto|cbn; intuition discriminate].
    + destruct H1 as [H1 F]. cbn in H1. subst arr. cbn [dump andb] in E. rewrite nums_eq, <- !app_assoc in E. apply app_inv_head in E. cbn [okty] in O. subst top.
      assert (M : (1 <= fst (format d))%nat) by (destruct (fmt_eq d false D) as (m & t & -> & A & _); apply A; reflexivity).
      destruct l as [|z l]; [discriminate E|]. cbn [flat_map] in E. rewrite <- !app_assoc in E. destruct (fst (format d)); [lia|]. discriminate E.
    + destruct H1 as [H1 F]. cbn in H1. subst arr. rewrite dump_seq in E. cbn [andb] in E. rewrite <- !app_assoc in E. apply app_inv_head in E. discriminate E.
    + rewrite dump_obj, <- !app_assoc in E. apply app_inv_head in E. discriminate E.
  - exfalso. assert (X : forall r1 r2, dump d x2 ++ r1 <> dump_basic d (bs "null") ++ r2); [|eapply X; symmetry; exact E].
    clear E r1 r2 S1 S2. intros r1 r2 E. unfold dump_basic in E. rewrite <- !app_assoc in E.
    destruct t as [| |[k|]|[k|] t|a b|ps|t|]; cbn [target] in T; try contradiction; destruct x2 as [s| |arr l|arr l| |q| |]; cbn [has] in H2; try contradiction.
    + cbn [dump] in E. unfold dump_basic in E. rewrite <- !app_assoc in E. apply app_inv_head in E. apply (cut nl) in E as [-> _]; [destruct H2 as (_ & _ & N); now apply N|apply num_not; auto; cbn; tauto|cbn; intuition discriminate].
    + destruct H2 as [H2 F]. cbn in H2. subst arr. cbn [dump andb] in E. rewrite nums_eq, <- !app_assoc in E. apply app_inv_head in E. cbn [okty] in O. subst top.
      assert (M : (1 <= fst (format d))%nat) by (destruct (fmt_eq d false D) as (m & t & -> & A & _); apply A; reflexivity).
      destruct l as [|z l]; [discriminate E|]. cbn [flat_map] in E. rewrite <- !app_assoc in E. destruct (fst (format d)); [lia|]. discriminate E.
    + destruct H2 as [H2 F]. cbn in H2. subst arr. rewrite dump_seq in E. cbn [andb] in E. rewrite <- !app_assoc in E. apply app_inv_head in E. discriminate E.
    + rewrite dump_obj, <- !app_assoc in E. apply app_inv_head in E. discriminate E.
  - apply app_inv_head in E. auto.
Qed.
Lemma P_all : forall t, P t.
Proof.
  induction t as [| |n|n t IH|a b IHa IHb|ps IH|t IH|] using ty_ind'; [apply P_fund|apply P_str|apply P_nums|now apply P_seq|now apply P_pair|now apply P_obj|now apply P_ptr|].
  intros top d v1 v2 r1 r2 O D H1 H2 S1 S2 E. destruct v1, v2; cbn [has] in H1, H2; try contradiction. auto.
Qed.

(** ** C104 *)
(** Two objects of the same type that are dumped alike are equal. *)
Theorem C104_readable : forall t d top v1 v2, okty t top -> dgood d top -> has t v1 -> has t v2 -> dump d v1 = dump d v2 -> v1 = v2.
Proof.
  intros t d top v1 v2 O D H1 H2 E. apply (P_all t top d v1 v2 [] [] O D H1 H2); [split; [exact I|discriminate]..|]. now rewrite !app_nil_r.
Qed.
Print Assumptions C104_readable.
Definition t_ex : ty := TObj [([], TObj [(bs ".a", TFund)]); (bs ".v", TNums None); (bs ".m", TSeq None (TPair TStr TFund)); (bs ".p", TPtr (TObj [(bs ".b", TFund)])); (bs ".s", TStr)].
Definition v_ex : val := VObj [([], VObj [(bs ".a", VFund (bs "1"))]); (bs ".v", VNums false [bs "2"; bs "34"]);
  (bs ".m", VSeq false [VPair (VStr (bs "k")) (VFund (bs "5"))]); (bs ".p", VPtr (Some (VObj [(bs ".b", VFund (bs "6"))]))); (bs ".s", VStr (bs "null"))].
Lemma num_b s : forallb (fun c => negb (existsb (Ascii.eqb c) [" "%char; ":"%char; nl; "]"%char])) s = true -> s <> [] -> s <> bs "null" -> num s.
Proof.
  intros C N1 N2. split; [exact N1|]. split; [|exact N2]. apply Forall_forall. intros c I1 I2. rewrite forallb_forall in C. specialize (C c I1). apply negb_true_iff in C.
  assert (existsb (Ascii.eqb c) [" "%char; ":"%char; nl; "]"%char] = true); [|congruence]. apply existsb_exists. exists c. split; [exact I2|apply Ascii.eqb_refl].
Qed.
Example C104_readable_ex : okty t_ex true /\ dgood [] true /\ has t_ex v_ex.
Proof.
  assert (ID : forall n, forallb (fun c => negb (existsb (Ascii.eqb c) [dot; nul; " "%char; "{"%char; "}"%char])) n = true -> ident n).
  { intros n C. apply Forall_forall. intros c I1 I2. rewrite forallb_forall in C. specialize (C c I1). apply negb_true_iff in C.
    assert (existsb (Ascii.eqb c) [dot; nul; " "%char; "{"%char; "}"%char] = true); [|congruence]. apply existsb_exists. exists c. split; [exact I2|apply Ascii.eqb_refl]. }
  split; [|split; [reflexivity|]].
  - cbn. split; [split; [exact I|left; split; [reflexivity|]]|].
    { split; [|exact I]. split; [exact I|]. right. exists (bs "a"). split; [reflexivity|]. split; [apply ID; reflexivity|exact I]. }
    split; [split; [exact I|right; exists (bs "v"); split; [reflexivity|split; [apply ID; reflexivity|reflexivity]]]|].
    split; [split; [exact I|right; exists (bs "m"); split; [reflexivity|split; [apply ID; reflexivity|repeat split]]]|].
    split; [split; [exact I|right; exists (bs "p"); split; [reflexivity|split; [apply ID; reflexivity|]]]|].
    { split; [exact I|]. split; [|exact I]. split; [exact I|]. right. exists (bs "b"). split; [reflexivity|]. split; [apply ID; reflexivity|exact I]. }
    split; [|exact I]. split; [exact I|]. right. exists (bs "s"). split; [reflexivity|]. split; [apply ID; reflexivity|exact I].
  - cbn [has t_ex v_ex]. assert (N : forall s, forallb (fun c => negb (existsb (Ascii.eqb c) [" "%char; ":"%char; nl; "]"%char])) s = true -> s <> [] -> s <> bs "null" -> num s) by (intros; now apply num_b).
    split; [reflexivity|]. split; [split; [reflexivity|split; [apply N; [reflexivity|discriminate..]|exact I]]|].
    split; [reflexivity|]. split; [split; [reflexivity|constructor; [apply N; [reflexivity|discriminate..]|constructor; [apply N; [reflexivity|discriminate..]|constructor]]]|].
    split; [reflexivity|]. split; [split; [reflexivity|constructor; [split; [cbn; intuition discriminate|apply N; [reflexivity|discriminate..]]|constructor]]|].
    split; [reflexivity|]. split; [split; [reflexivity|split; [apply N; [reflexivity|discriminate..]|exact I]]|].
    split; [reflexivity|]. split; [cbn; intuition discriminate|exact I].
Qed.
Example C104_text : dump [] v_ex = concat (map (fun l => l ++ [nl]) (map list_ascii_of_string
  [":{"; ":{"; " a:1"; " }"; " v: 2 34"; " m:"; "  {"; "  m[0]]=:k"; " m[0]:5"; "  }"; " p:{"; "  b:6"; "  }"; " s:null"; " }"]%string)).
Proof. vm_compute. reflexivity. Qed.

(** ** every value is printed on a line with its name, indented by its depth *)
Inductive leaf : list ascii -> val -> list ascii -> list ascii -> Prop :=
| L_fund d s : leaf d (VFund s) d s
| L_str d s : leaf d (VStr s) d s
| L_null d : leaf d (VPtr None) d (bs "null")
| L_ptr d x p s : leaf d x p s -> leaf d (VPtr (Some x)) p s
| L_member d ps m x p s : In (m, x) ps -> leaf (d ++ m) x p s -> leaf d (VObj ps) p s
| L_element d arr l i x p s : nth_error l i = Some x -> leaf (d ++ bs "[" ++ dec (N.of_nat i) ++ bs "]") x p s -> leaf d (VSeq arr l) p s
| L_key d a b p s : (forall k, a <> VFund k) -> leaf (bs "[." ++ d ++ bs "]=") a p s -> leaf d (VPair a b) p s
| L_second d a b p s : (forall k k', ~ (a = VFund k /\ b = VFund k')) -> leaf d b p s -> leaf d (VPair a b) p s.
Theorem C104_leaves : forall d v p s, leaf d v p s -> ~ In nul p ->
  exists pre post, dump d v = pre ++ repeat " "%char (ndots p) ++ tail p ++ bs ":" ++ s ++ [nl] ++ post.
Proof.
  intros d v p s H NN.
  assert (B : forall d s, ~ In nul d -> dump_basic d s = repeat " "%char (ndots d) ++ tail d ++ bs ":" ++ s ++ [nl]).
  { intros e t E. unfold dump_basic. rewrite C57_line by exact E. cbn [snd]. now rewrite <- !app_assoc. }
  induction H as [d s|d s|d|d x p s H IH|d ps m x p s IN H IH|d arr l i x p s NT H IH|d a b p s NK H IH|d a b p s NK H IH].
  - exists [], []. cbn [dump]. rewrite B by exact NN. reflexivity.
  - exists [], []. cbn [dump]. rewrite B by exact NN. reflexivity.
  - exists [], []. cbn [dump]. rewrite B by exact NN. reflexivity.
  - exact (IH NN).
  - destruct (IH NN) as (pre & post & E). rewrite dump_obj. apply in_split in IN as (l1 & l2 & ->).
    assert (PA : forall a b, pdump d (a ++ b) = pdump d a ++ pdump d b).
    { induction a as [|[q y] a IHa]; intro b; [reflexivity|]. cbn [app pdump]. now rewrite IHa, app_assoc. }
    rewrite PA. cbn [pdump]. rewrite E. exists (snd (format d) ++ bs "{" ++ endl ++ pdump d l1 ++ pre), (post ++ pdump d l2 ++ closing (fst (format d))). now rewrite <- !app_assoc.
  - destruct (IH NN) as (pre & post & E). rewrite dump_seq.
    assert (X : forall l i k, nth_error l i = Some x -> exists q q', elems d k l = q ++ dump (element d (k + N.of_nat i)) x ++ q').
    { clear. induction l as [|y l IHl]; intros [|i] k N; try discriminate; cbn [nth_error] in N; cbn [elems].
      - injection N as ->. rewrite N.add_0_r. eexists _, _. reflexivity.
      - destruct (IHl i (k + 1)%N N) as (q & q' & Q). rewrite Q. replace (k + 1 + N.of_nat i)%N with (k + N.of_nat (S i))%N by lia.
        exists (opening (fst (format d)) ++ dump (element d k) y ++ closing (fst (format d)) ++ q), q'. now rewrite <- !app_assoc. }
    destruct (X l i 0%N NT) as (q & q' & Q). rewrite Q. unfold element. rewrite N.add_0_l, E. destruct (arr && (length l =? 0)%nat) eqn:Z.
    + exfalso. apply andb_true_iff in Z as [_ Z]. apply Nat.eqb_eq in Z. destruct l; [destruct i; discriminate|discriminate].
    + exists (snd (format d) ++ endl ++ q ++ pre), (post ++ q'). now rewrite <- !app_assoc.
  - destruct (IH NN) as (pre & post & E). exists pre, (post ++ dump d b).
    replace (dump d (VPair a b)) with (dump (bs "[." ++ d ++ bs "]=") a ++ dump d b) by (destruct a; try reflexivity; exfalso; eapply NK; reflexivity).
    rewrite E. now rewrite <- !app_assoc.
  - destruct (IH NN) as (pre & post & E).
    assert (X : exists q, dump d (VPair a b) = q ++ dump d b).
    { destruct a as [k|s0|a0 l0|a0 l0|a0 b0|ps0|o0|]; cbn [dump]; [|eexists; reflexivity..]. exists (bs "[" ++ k ++ bs "]="). rewrite <- !app_assoc.
      destruct b as [k'| | | | | | |]; try reflexivity. exfalso. eapply NK. split; reflexivity. }
    destruct X as [q ->]. rewrite E. exists (q ++ pre), post. now rewrite <- !app_assoc.
Qed.
Print Assumptions C104_leaves.
Example C104_leaves_ex : leaf [] v_ex (bs ".m[0]") (bs "5") /\ tail (bs ".m[0]") = bs "m[0]" /\ ndots (bs ".m[0]") = 1%nat.
Proof.
  split; [|split; vm_compute; reflexivity]. eapply L_member with (m := bs ".m"); [right; right; left; reflexivity|]. eapply (L_element _ _ _ 0); [reflexivity|].
  apply L_second; [intros k k' [A _]; discriminate A|]. apply L_fund.
Qed.

(** The braces match if those in texts do not count. *)
Fixpoint bal (n : nat) (s : list ascii) : option nat :=
  match s with
  | [] => Some n
  | c :: s' => if ascii_dec c "{"%char then bal (S n) s' else if ascii_dec c "}"%char then match n with O => None | S n' => bal n' s' end else bal n s'
  end.
Definition nobr (s : list ascii) : Prop := ~ In "{"%char s /\ ~ In "}"%char s.
Fixpoint nobrv (v : val) : Prop :=
  match v with
  | VFund s | VStr s => nobr s
  | VNums _ l => Forall nobr l
  | VSeq _ l => (fix go l := match l with [] => True | x :: l' => nobrv x /\ go l' end) l
  | VPair a b => nobrv a /\ nobrv b
  | VObj ps => (fix go (l : list (list ascii * val)) := match l with [] => True | (s, x) :: l' => nobr s /\ nobrv x /\ go l' end) ps
  | VPtr (Some x) => nobrv x
  | VPtr None | VNone => True
  end.
Lemma nobr_app a b : nobr a -> nobr b -> nobr (a ++ b).
Proof. intros [A1 A2] [B1 B2]. split; rewrite in_app_iff; tauto. Qed.
Lemma bal_nobr : forall s n r, nobr s -> bal n (s ++ r) = bal n r.
Proof.
  induction s as [|c s IH]; intros n r [A B]; [reflexivity|]. cbn [app bal]. destruct (ascii_dec c "{") as [->|_]; [exfalso; apply A; now left|].
  destruct (ascii_dec c "}") as [->|_]; [exfalso; apply B; now left|]. apply IH. split; intro; [apply A|apply B]; now right.
Qed.
Lemma nobr_sp n : nobr (repeat " "%char n).
Proof. split; intro X; apply repeat_spec in X; discriminate. Qed.
Lemma nobr_part a b s : s = a ++ b -> nobr s -> nobr a /\ nobr b.
Proof. intros -> [A B]. rewrite in_app_iff in A, B. repeat split; tauto. Qed.
Lemma nobr_format d : nobr d -> nobr (snd (format d)).
Proof.
  assert (FL : forall c tl nd o, nobr tl -> nobr c -> nobr o -> nobr (snd (fst (fmt_loop c tl nd o))) /\ nobr (snd (fmt_loop c tl nd o))).
  { induction c as [|x c IH]; intros tl nd o T C O; cbn [fmt_loop]; [cbn [fst snd]; auto|].
    assert (C' : nobr c) by (apply (nobr_part [x] c (x :: c)); auto).
    destruct (ascii_dec x nul); [cbn [fst snd]; auto|]. destruct (ascii_dec x dot); apply IH; auto. apply nobr_app; [exact O|]. split; cbn; intuition discriminate. }
  assert (CS : forall s, nobr s -> nobr (cstr s)).
  { induction s as [|x s IH]; intro H; [exact H|]. cbn [cstr]. destruct (ascii_dec x nul); [split; intros []|].
    destruct (nobr_part [x] s (x :: s) eq_refl H) as [A B]. apply (nobr_app [x]); auto. }
  intro H. unfold format. destruct (FL d d O [] H H) as [A B]; [split; intros []|]. destruct (fmt_loop d d O []) as [[nd tl] o]. cbn [fst snd] in *.
  apply nobr_app; [exact B|]. apply nobr_app; [now apply CS|]. split; cbn; intuition discriminate.
Qed.
Lemma nobr_endl : nobr endl.
Proof. split; cbn; intuition discriminate. Qed.
Lemma bal_open m n r : bal n (opening m ++ r) = bal (S n) r.
Proof. unfold opening, setw. rewrite <- !app_assoc, bal_nobr by apply nobr_sp. change (bs "{") with ["{"%char]. cbn [app bal]. destruct (ascii_dec "{" "{"); [|congruence]. apply bal_nobr. apply nobr_endl. Qed.
Lemma bal_close m n r : bal (S n) (closing m ++ r) = bal n r.
Proof. unfold closing, setw. rewrite <- !app_assoc, bal_nobr by apply nobr_sp. change (bs "}") with ["}"%char]. cbn [app bal]. destruct (ascii_dec "}" "{"); [discriminate|]. destruct (ascii_dec "}" "}"); [|congruence]. apply bal_nobr. apply nobr_endl. Qed.
Lemma val_ind' (Q : val -> Prop) : (forall s, Q (VFund s)) -> (forall s, Q (VStr s)) -> (forall a l, Q (VNums a l)) -> (forall a l, Forall Q l -> Q (VSeq a l)) ->
  (forall a b, Q a -> Q b -> Q (VPair a b)) -> (forall ps, Forall (fun p => Q (snd p)) ps -> Q (VObj ps)) -> (forall x, Q x -> Q (VPtr (Some x))) -> Q (VPtr None) -> Q VNone -> forall v, Q v.
Proof.
  intros H1 H2 H3 H4 H5 H6 H7 H8 H9. fix F 1. intros [s|s|a l|a l|a b|ps|[x|]|]; [apply H1|apply H2|apply H3| |apply H5; apply F| |apply H7, F|exact H8|exact H9].
  - apply H4. induction l as [|x l IH]; constructor; [apply F|exact IH].
  - apply H6. induction ps as [|[s x] ps IH]; constructor; [apply F|exact IH].
Qed.
Lemma bal_dump : forall v d n r, nobr d -> nobrv v -> bal n (dump d v ++ r) = bal n r.
Proof.
  induction v as [s|s|a l|a l IH|a b IHa IHb|ps IH|x IH| |] using val_ind'; intros d n r D H; cbn [nobrv] in H.
  - cbn [dump]. apply bal_nobr. unfold dump_basic. repeat apply nobr_app; auto using nobr_format, nobr_endl.
  - cbn [dump]. apply bal_nobr. unfold dump_basic. repeat apply nobr_app; auto using nobr_format, nobr_endl.
  - cbn [dump]. destruct (a && _); [reflexivity|]. apply bal_nobr. rewrite nums_eq. apply nobr_app; [now apply nobr_format|]. apply nobr_app; [|apply nobr_endl].
    induction H as [|x l X F IH]; [split; intros []|]. cbn [flat_map]. apply nobr_app; [apply nobr_app; [apply nobr_sp|exact X]|exact IH].
  - rewrite dump_seq. destruct (a && _); [reflexivity|]. rewrite <- !app_assoc. rewrite bal_nobr by now apply nobr_format. rewrite bal_nobr by apply nobr_endl.
    generalize 0%N. induction l as [|x l IHl]; intro i; [reflexivity|]. destruct H as [Hx Hl]. inversion IH as [|? ? Q1 Q2]; subst. cbn [elems]. rewrite <- !app_assoc, bal_open, Q1; auto.
    + rewrite bal_close. now apply IHl.
    + unfold element. apply nobr_app; [exact D|]. apply nobr_app; [split; cbn; intuition discriminate|]. apply nobr_app; [|split; cbn; intuition discriminate].
      pose proof (dec_isdigit i) as F. rewrite Forall_forall in F. split; intro X; destruct (dig _ (F _ X)) as (_ & _ & A & B); congruence.
  - destruct H as [Ha Hb].
    assert (K : nobr (bs "[." ++ d ++ bs "]=")) by (apply nobr_app; [split; cbn; intuition discriminate|]; apply nobr_app; [exact D|split; cbn; intuition discriminate]).
    assert (G0 : bal n ((dump (bs "[." ++ d ++ bs "]=") a ++ dump d b) ++ r) = bal n r) by (rewrite <- app_assoc, IHa by assumption; now apply IHb).
    destruct a as [k| | | | | | |]; try exact G0. cbn [dump]. rewrite <- !app_assoc. rewrite bal_nobr by (split; cbn; intuition discriminate). rewrite bal_nobr by exact Ha.
    rewrite bal_nobr by (split; cbn; intuition discriminate). destruct b; try (now apply IHb). apply bal_nobr. exact Hb.
  - rewrite dump_obj, <- !app_assoc. rewrite bal_nobr by now apply nobr_format. change (bs "{") with ["{"%char]. cbn [app bal]. destruct (ascii_dec "{" "{"); [|congruence].
    rewrite bal_nobr by apply nobr_endl.
    assert (G0 : bal (S n) (pdump d ps ++ closing (fst (format d)) ++ r) = bal (S n) (closing (fst (format d)) ++ r)); [|now rewrite G0, bal_close].
    generalize (closing (fst (format d)) ++ r). intro q. induction ps as [|[s x] ps IHp]; [reflexivity|]. destruct H as (Hs & Hx & Hps). inversion IH as [|? ? Q1 Q2]; subst. cbn [snd] in Q1.
    cbn [pdump]. rewrite <- app_assoc, Q1; auto. now apply nobr_app.
  - cbn [dump]. now apply IH.
  - cbn [dump]. apply bal_nobr. unfold dump_basic. repeat apply nobr_app; auto using nobr_format, nobr_endl. split; cbn; intuition discriminate.
  - reflexivity.
Qed.
Theorem C104_balanced : forall d v, nobr d -> nobrv v -> bal 0 (dump d v) = Some 0%nat.
Proof. intros d v D H. rewrite <- (app_nil_r (dump d v)). rewrite bal_dump; auto. Qed.
Print Assumptions C104_balanced.
Example C104_balanced_ex : nobr [] /\ nobrv v_ex.
Proof.
  assert (N : forall s, forallb (fun c => negb (Ascii.eqb c "{") && negb (Ascii.eqb c "}"))%bool s = true -> nobr s).
  { intros s C. rewrite forallb_forall in C. split; intro X; specialize (C _ X); discriminate C. }
  split; [apply N; reflexivity|]. cbn [nobrv v_ex].
  repeat match goal with |- _ /\ _ => split | |- nobr _ => apply N; reflexivity | |- True => exact I | |- Forall _ _ => constructor end.
Qed.

(** The elements of a container dumped with a description without dots run together. *)
Theorem C104_container_refuted : exists d v1 v2, v1 <> v2 /\ has (TNums None) v1 /\ has (TNums None) v2 /\ dump d v1 = dump d v2.
Proof.
  exists (bs "v"), (VNums false [bs "1"; bs "2"]), (VNums false [bs "12"]). split; [discriminate|].
  split; [split; [reflexivity|constructor; [apply num_b; [reflexivity|discriminate..]|constructor; [apply num_b; [reflexivity|discriminate..]|constructor]]]|].
  split; [split; [reflexivity|constructor; [apply num_b; [reflexivity|discriminate..]|constructor]]|]. vm_compute. reflexivity.
Qed.
Print Assumptions C104_container_refuted.
(** A null pointer to a string looks like one to the string "null". *)
Theorem C104_null_refuted : exists d v1 v2, v1 <> v2 /\ has (TPtr TStr) v1 /\ has (TPtr TStr) v2 /\ dump d v1 = dump d v2.
Proof. exists (bs ".p"), (VPtr None), (VPtr (Some (VStr (bs "null")))). split; [discriminate|]. split; [exact I|]. split; [cbn; intuition discriminate|]. vm_compute. reflexivity. Qed.
Print Assumptions C104_null_refuted.
(** Strings are not quoted: with line ends in them members cannot be told apart. *)
Theorem C104_string_refuted : exists d s t s' t', s <> s' /\ dump d (VObj [(bs ".s", VStr s); (bs ".t", VStr t)]) = dump d (VObj [(bs ".s", VStr s'); (bs ".t", VStr t')]).
Proof. exists [], (bs "a" ++ nl :: bs " t:b"), (bs "c"), (bs "a"), (bs "b" ++ nl :: bs " t:c"). split; [discriminate|]. vm_compute. reflexivity. Qed.
Print Assumptions C104_string_refuted.

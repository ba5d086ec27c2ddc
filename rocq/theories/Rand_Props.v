(** * Random initialisation: what values come out *)
From Verif Require Import Base Rand_Model.
Open Scope N_scope.

(** ** Arithmetic *)
Lemma rne_le a b c : 0 < b -> a <= c * b -> rne a b <= c.
Proof.
  intros B L. unfold rne. pose proof (N.div_mod a b ltac:(lia)) as D. pose proof (N.mod_lt a b ltac:(lia)) as M.
  set (q := a / b) in *. set (r := a mod b) in *. clearbody q r.
  assert (Q : q < c \/ (q = c /\ r = 0)) by nia.
  destruct (N.ltb_spec (2 * r) b); [lia|]. destruct Q as [Q|[-> ->]]; [|lia]. destruct (b <? 2 * r); [lia|]. destruct (N.even q); lia.
Qed.
Lemma rne_ge a b c : 0 < b -> c * b <= a -> c <= rne a b.
Proof.
  intros B L. unfold rne. pose proof (N.div_le_lower_bound a b c ltac:(lia) ltac:(lia)) as Q.
  destruct (_ <? b); [lia|]. destruct (b <? _); [lia|]. destruct (N.even _); lia.
Qed.
(** the error is at most half of the divisor *)
Lemma rne_err a b : 0 < b -> 2 * (rne a b * b) <= 2 * a + b.
Proof.
  intros B. unfold rne. pose proof (N.div_mod a b ltac:(lia)) as D. pose proof (N.mod_lt a b ltac:(lia)) as M.
  set (q := a / b) in *. set (r := a mod b) in *. clearbody q r.
  destruct (N.ltb_spec (2 * r) b); [nia|]. destruct (N.ltb_spec b (2 * r)); [nia|]. destruct (N.even q); nia.
Qed.
Lemma pow_pos b : 0 < 2 ^ b.
Proof. pose proof (N.pow_nonzero 2 b). lia. Qed.
Lemma rnd_le p b : p <= 2 ^ b -> rnd53 p <= 2 ^ b.
Proof.
  intros L. unfold rnd53. destruct (N.ltb_spec p (2 ^ 53)) as [|G]; [exact L|]. cbv zeta.
  assert (LG : N.log2 p <= b) by (rewrite <- (N.log2_pow2 b) by lia; now apply N.log2_le_mono).
  set (k := N.log2 p - 52) in *. assert (K : k <= b) by lia.
  replace (2 ^ b) with (2 ^ (b - k) * 2 ^ k) in * by (rewrite <- N.pow_add_r; f_equal; lia).
  apply N.mul_le_mono_r, rne_le; [apply pow_pos|exact L].
Qed.
Lemma rnd_ge p b : 2 ^ b <= p -> rnd53 p >= 2 ^ b.
Proof.
  intros L. unfold rnd53. destruct (N.ltb_spec p (2 ^ 53)) as [|G]; [lia|]. cbv zeta. apply N.le_ge.
  set (k := N.log2 p - 52) in *. destruct (N.le_gt_cases k b) as [K|K].
  - replace (2 ^ b) with (2 ^ (b - k) * 2 ^ k) in * by (rewrite <- N.pow_add_r; f_equal; lia).
    apply N.mul_le_mono_r, rne_ge; [apply pow_pos|exact L].
  - pose proof (N.log2_spec p) as [LS _]; [pose proof (pow_pos 53); lia|].
    assert (R1 : 1 <= rne p (2 ^ k)). { apply rne_ge; [apply pow_pos|]. rewrite N.mul_1_l. etransitivity; [|exact LS]. apply N.pow_le_mono_r; lia. }
    assert (2 ^ b <= 2 ^ k) by (apply N.pow_le_mono_r; lia). nia.
Qed.

(** the contract in the comment at random_init_base.h 23: a double in [0..1) *)
Definition unit_dbl (r : dbl) : Prop := fst r <= 2 ^ 53 /\ fst r < 2 ^ snd r.

(** a number times a double below 1 stays below the number, whatever the rounding *)
Lemma mul_lt n r : unit_dbl r -> 0 < n -> rnd53 (n * fst r) < n * 2 ^ snd r.
Proof.
  destruct r as [m e]. cbn [fst snd]. intros [M1 M2] P. cbn [fst snd] in *. unfold rnd53. destruct (N.ltb_spec (n * m) (2 ^ 53)) as [L|G]; [nia|]. cbv zeta.
  pose proof (N.log2_spec (n * m)) as [LS _]; [pose proof (pow_pos 53); lia|].
  assert (52 < N.log2 (n * m) \/ N.log2 (n * m) <= 52) as [LG|LG] by lia.
  2: { apply N.log2_le_pow2 in G; [lia|]. pose proof (pow_pos 53). lia. }
  set (k := N.log2 (n * m) - 52) in *. pose proof (rne_err (n * m) (2 ^ k) (pow_pos k)) as ER.
  replace (2 ^ N.log2 (n * m)) with (2 ^ 52 * 2 ^ k) in LS by (rewrite <- N.pow_add_r; f_equal; lia).
  set (q := rne _ _ * 2 ^ k) in *. clearbody q. set (B := 2 ^ k) in *. assert (BP : 0 < B) by apply pow_pos. clearbody B.
  destruct (N.le_gt_cases e 53) as [E|E].
  - assert (2 ^ e <= 2 ^ 53) by (apply N.pow_le_mono_r; lia). set (X := 2 ^ e) in *. clearbody X.
    change (2 ^ 53) with (2 * 2 ^ 52) in *. set (Y := 2 ^ 52) in *. assert (YP : 0 < Y) by apply pow_pos. clearbody Y. nia.
  - assert (2 * 2 ^ 53 <= 2 ^ e). { change (2 * 2 ^ 53) with (2 ^ 54). apply N.pow_le_mono_r; lia. } set (X := 2 ^ e) in *. clearbody X.
    assert (1 <= 2 ^ 52) by (pose proof (pow_pos 52); lia). set (Y := 2 ^ 53) in *. clearbody Y. set (Z := 2 ^ 52) in *. clearbody Z. nia.
Qed.
Lemma mul_trunc n r : unit_dbl r -> 0 < n -> trunc (fmul n r) < n.
Proof.
  intros U P. unfold trunc, fmul. cbn [fst snd]. apply N.div_lt_upper_bound; [pose proof (pow_pos (snd r)); lia|].
  rewrite (N.mul_comm (2 ^ _)). now apply mul_lt.
Qed.

(** every multiple of the spacing *)
Lemma rnd_mult p j : 2 ^ (52 + j) <= p -> exists q, rnd53 p = q * 2 ^ j.
Proof.
  intros L. unfold rnd53. destruct (N.ltb_spec p (2 ^ 53)) as [G|G].
  - assert (j = 0). { destruct (N.eq_dec j 0); [assumption|]. assert (2 ^ 53 <= 2 ^ (52 + j)) by (apply N.pow_le_mono_r; lia). lia. }
    subst j. exists p. change (2 ^ 0) with 1. lia.
  - cbv zeta. apply N.log2_le_pow2 in L; [|pose proof (pow_pos 53); lia]. set (k := N.log2 p - 52). exists (rne p (2 ^ k) * 2 ^ (k - j)).
    rewrite <- N.mul_assoc, <- N.pow_add_r. do 2 f_equal. subst k. lia.
Qed.
(** a character is printable: neither 31 and below nor 127 *)
Lemma char_range r : unit_dbl r -> 32 <= trunc (fadd 32 (fmul 95 r)) <= 126.
Proof.
  intros U. pose proof (mul_lt 95 r U ltac:(lia)) as S0. destruct U as [M1 M2]. unfold trunc, fadd, fmul. destruct r as [m e]. cbn [fst snd] in *.
  pose proof (pow_pos e) as XP. set (s := rnd53 (95 * m)) in *.
  assert (E7 : 2 ^ (e + 7) = 128 * 2 ^ e) by (rewrite N.pow_add_r; change (2 ^ 7) with 128; lia).
  assert (E5 : 2 ^ (e + 5) = 32 * 2 ^ e) by (rewrite N.pow_add_r; change (2 ^ 5) with 32; lia).
  assert (E6 : 2 ^ (e + 6) = 64 * 2 ^ e) by (rewrite N.pow_add_r; change (2 ^ 6) with 64; lia).
  split.
  - apply N.div_le_lower_bound; [lia|]. pose proof (rnd_ge (32 * 2 ^ e + s) (e + 5)) as G. lia.
  - apply N.lt_succ_r. apply N.div_lt_upper_bound; [lia|]. rewrite (N.mul_comm (2 ^ e)). change (N.succ 126) with 127.
    remember (32 * 2 ^ e + s) as x eqn:XE. unfold rnd53. destruct (N.ltb_spec x (2 ^ 53)) as [L|G]; [lia|]. cbv zeta.
    assert (XL : N.log2 x < e + 7). { apply N.log2_lt_pow2; lia. }
    set (k := N.log2 x - 52). pose proof (rne_err x (2 ^ k) (pow_pos k)) as ER. set (q := rne x (2 ^ k) * 2 ^ k) in *. clearbody q.
    assert (G' : 53 <= N.log2 x). { apply N.log2_le_pow2 in G; [exact G|]. pose proof (pow_pos 53). lia. }
    assert (K : k <= e - 46) by (subst k; lia). assert (B : 2 ^ k <= 2 ^ (e - 46)) by (apply N.pow_le_mono_r; lia).
    assert (E46 : 2 ^ e = 2 ^ 46 * 2 ^ (e - 46)) by (rewrite <- N.pow_add_r; f_equal; lia).
    enough (D : 2 ^ (e - 46) <= 95 * 2 ^ e - s) by (pose proof (pow_pos k); lia).
    destruct (N.le_gt_cases (64 * 2 ^ e) (95 * m)) as [H|H].
    + destruct (rnd_mult (95 * m) (e - 46)) as [c C]. { rewrite <- E6 in H. etransitivity; [|exact H]. apply N.pow_le_mono_r; lia. }
      fold s in C. rewrite C in S0 |- *. rewrite E46 in S0 |- *. pose proof (pow_pos (e - 46)) as YP. set (Y := 2 ^ (e - 46)) in *. clearbody Y. set (Z := 2 ^ 46) in *. clearbody Z. clear - S0 YP.
      assert (c < 95 * Z) by (apply (N.mul_lt_mono_pos_r Y); lia). assert ((c + 1) * Y <= 95 * Z * Y) by (apply N.mul_le_mono_r; lia). lia.
    + pose proof (rnd_le (95 * m) (e + 6) ltac:(lia)) as H1. fold s in H1. rewrite E6 in H1.
      assert (2 ^ (e - 46) <= 2 ^ e) by (apply N.pow_le_mono_r; lia). lia.
Qed.
(** a number converted to an integral type fits *)
Lemma int_range b r : unit_dbl r -> 0 < b -> trunc (fmul (rnd53 (2 ^ b - 1)) r) < 2 ^ b.
Proof.
  intros U P. assert (X : 2 <= 2 ^ b) by (change 2 with (2 ^ 1) at 1; apply N.pow_le_mono_r; lia).
  pose proof (rnd_le (2 ^ b - 1) b ltac:(lia)) as LE. pose proof (rnd_ge (2 ^ b - 1) 0) as GE. change (2 ^ 0) with 1 in GE.
  pose proof (mul_trunc (rnd53 (2 ^ b - 1)) r U ltac:(lia)). lia.
Qed.

(** ** The generator of the standard library *)
Theorem C98_rand : forall k, k <= RAND_MAX -> unit_dbl (std_rand k) <-> k <> RAND_MAX.
Proof.
  intros k L. split.
  - intros U ->. destruct U as [_ U]. vm_compute in U. discriminate.
  - intros NE. unfold std_rand. destruct (N.eqb_spec k 0) as [-> |NZ]; [split; vm_compute; congruence|]. cbv zeta. unfold unit_dbl. cbn [fst snd].
    pose proof (N.log2_spec k ltac:(lia)) as [L1 L2]. set (j := N.log2 k) in *. assert (J : j < 31). { apply N.log2_lt_pow2; unfold RAND_MAX in *; [lia|]. change (2 ^ 31) with 2147483648. lia. }
    assert (E : 2 ^ 53 * 2 ^ (30 - j) = 2 ^ (83 - j)) by (rewrite <- N.pow_add_r; f_equal; lia).
    assert (A : k * 2 ^ (83 - j) <= 2 ^ 53 * RAND_MAX).
    { rewrite <- N.add_1_r, N.pow_add_r in L2. assert (F : 2 ^ j * 2 ^ (30 - j) = 2 ^ 30) by (rewrite <- N.pow_add_r; f_equal; lia). change (2 ^ 1) with 2 in L2.
      rewrite <- E. replace (k * (2 ^ 53 * 2 ^ (30 - j))) with (2 ^ 53 * (k * 2 ^ (30 - j))) by lia. apply N.mul_le_mono_l.
      pose proof (pow_pos (30 - j)). change (2 ^ 30) with 1073741824 in F. unfold RAND_MAX. nia. }
    split; [apply rne_le; [reflexivity|exact A]|].
    destruct (N.eq_dec j 30) as [-> |J'].
    + change (83 - 30) with 53 in *. apply (N.le_lt_trans _ (2 ^ 53 - 1)); [|reflexivity]. apply rne_le; [reflexivity|]. unfold RAND_MAX in *. change (2 ^ 53) with 9007199254740992 in *. nia.
    + apply (N.le_lt_trans _ (2 ^ 53)); [apply rne_le; [reflexivity|exact A]|]. apply N.pow_lt_mono_r; lia.
Qed.
Print Assumptions C98_rand.

(** ** What a random value of a type is *)
Inductive all3 {A B C : Type} (P : A -> B -> C -> Prop) : list A -> list B -> list C -> Prop :=
| all3_nil : all3 P [] [] []
| all3_cons x y z l m n : P x y z -> all3 P l m n -> all3 P (x :: l) (y :: m) (z :: n).

Section Spec.
Variable tbl : nat -> list ty * list val.
Variable g : nat -> dbl.
Variable has : list val -> val -> bool.
Notation dflt := (dflt tbl).
Notation rinit := (rinit tbl g has).

(** values of a type *)
Inductive wt : ty -> val -> Prop :=
| W_int b z : wt (TInt b) (VI z) | W_bool b : wt TBool (VB b) | W_char c : wt TChar (VC c) | W_flt d : wt TFlt (VF d)
| W_str s : wt TStr (VS s) | W_enum keys z : wt (TEnum keys) (VE z)
| W_seq t l : Forall (wt t) l -> wt (TSeq t) (VL l)
| W_stdarr n t l : length l = n -> Forall (wt t) l -> wt (TStdArr n t) (VL l)
| W_pair t u v w : wt t v -> wt u w -> wt (TPair t u) (VP v w)
| W_set m t l : Forall (wt t) l -> wt (TSet m t) (VL l)
| W_map m k t l : Forall (wt (TPair k t)) l -> wt (TMap m k t) (VL l)
| W_arr n t l : length l = n -> Forall (wt t) l -> wt (TArr n t) (VL l)
| W_ptr p : wt TPtr (VPtr p)
| W_const t v : wt t v -> wt (TConst t) v
| W_excl t v : wt t v -> wt (TExcl t) v
| W_sh t v : wt t v -> wt (TShared t) (VSome v) | W_sh0 t : wt (TShared t) VNone
| W_shn t v : wt t v -> wt (TSharedN t) (VSome v) | W_shn0 t : wt (TSharedN t) VNone
| W_obj k l : Forall2 wt (fst (tbl k)) l -> wt (TObj k) (VObj l).

(** [inited t v w]: w is v after random initialisation.  The ranges are those random_init_base.h
    announces: the limits of the type, printable characters, fewer than ten elements, keys of the
    enumeration.  Constants, pointers and excluded members keep their values; elements kept or made
    by a container are themselves initialised *)
Inductive inited : ty -> val -> val -> Prop :=
| I_int b v z : z < 2 ^ b -> inited (TInt b) v (VI z)
| I_bool v b : inited TBool v (VB b)
| I_char v c : 32 <= c <= 126 -> inited TChar v (VC c)
| I_flt v d : unit_dbl d -> inited TFlt v (VF d)
| I_str v s : (length s < 10)%nat -> Forall (fun c => 32 <= c <= 126) s -> inited TStr v (VS s)
| I_enum keys v z : In z (map snd keys) -> inited (TEnum keys) v (VE z)
| I_seq t l n l' : (n < 10)%nat -> Forall2 (inited t) (firstn n l ++ repeat (dflt t) (n - length l)) l' -> inited (TSeq t) (VL l) (VL l')
| I_stdarr n t l l' : Forall2 (inited t) l l' -> inited (TStdArr n t) (VL l) (VL l')
| I_pair t u v w v' w' : inited t v v' -> inited u w w' -> inited (TPair t u) (VP v w) (VP v' w')
| I_set m t l x : (length x < 10)%nat -> Forall (inited t (dflt t)) x -> inited (TSet m t) (VL l) (VL (l ++ x))
| I_map m k t l x : (length x < 10)%nat -> (m = false -> (length x <= 1)%nat /\ (x <> [] -> ~ In (dflt k) (map key l))) ->
    Forall (inited t (dflt t)) x -> inited (TMap m k t) (VL l) (VL (l ++ map (VP (dflt k)) x))
| I_arr n t v : inited (TArr n t) v v
| I_ptr v : inited TPtr v v
| I_const t v : inited (TConst t) v v
| I_excl t v : inited (TExcl t) v v
| I_sh t v w : inited t (dflt t) w -> inited (TShared t) v (VSome w)
| I_shn t v w : inited t v w -> inited (TSharedN t) (VSome v) (VSome w)
| I_shn0 t : inited (TSharedN t) VNone VNone
| I_obj k l l' : all3 inited (fst (tbl k)) l l' -> inited (TObj k) (VObj l) (VObj l').

(** types whose enumerations have keys, and which do not contain themselves through smart pointers
    or containers: n bounds the nesting *)
Inductive good : nat -> ty -> Prop :=
| G_int n b : 0 < b -> good (S n) (TInt b) | G_bool n : good (S n) TBool | G_char n : good (S n) TChar | G_flt n : good (S n) TFlt
| G_str n : good (S n) TStr | G_enum n keys : keys <> [] -> good (S n) (TEnum keys)
| G_seq n t : good n t -> good (S n) (TSeq t)
| G_stdarr n k t : good n t -> good (S n) (TStdArr k t)
| G_pair n t u : good n t -> good n u -> good (S n) (TPair t u)
| G_set n m t : good n t -> good (S n) (TSet m t)
| G_map n m k t : good n t -> good (S n) (TMap m k t)
| G_arr n k t : good (S n) (TArr k t) | G_ptr n : good (S n) TPtr | G_const n t : good (S n) (TConst t) | G_excl n t : good (S n) (TExcl t)
| G_sh n t : good n t -> good (S n) (TShared t)
| G_shn n t : good n t -> good (S n) (TSharedN t)
| G_obj n k : Forall (good n) (fst (tbl k)) -> good (S n) (TObj k).

Lemma chars_range : (forall i, unit_dbl (g i)) -> forall n p, Forall (fun c => 32 <= c <= 126) (rchars g n p) /\ length (rchars g n p) = n.
Proof.
  intros U. induction n as [|n IH]; intros p; cbn [rchars length]; [now split|]. destruct (IH (S p)) as [A B]. split; [constructor; [now apply char_range|exact A]|now rewrite B].
Qed.
Lemma key_count_le keys : (N.to_nat (key_count keys) <= length keys)%nat.
Proof.
  unfold key_count, len. rewrite Nat2N.id. rewrite <- (map_length snd keys). apply NoDup_incl_length; [apply NoDup_nodup|].
  intros z. now rewrite nodup_In.
Qed.
Lemma key_count_pos keys : keys <> [] -> 0 < key_count keys.
Proof.
  intros NE. destruct keys as [|[a z] keys]; [congruence|]. unfold key_count, len. destruct (nodup Z.eq_dec (map snd ((a, z) :: keys))) eqn:E; [|cbn [length]; lia].
  exfalso. assert (I0 : In z (nodup Z.eq_dec (map snd ((a, z) :: keys)))) by (rewrite nodup_In; now left). now rewrite E in I0.
Qed.

Hypothesis tbl_wt : forall k, wt (TObj k) (VObj (snd (tbl k))).
Lemma dflt_wt : forall t, wt t (dflt t).
Proof.
  induction t; cbn [Rand_Model.dflt]; try (constructor; auto; fail).
  - constructor; [apply repeat_length|]. apply Forall_forall. intros x X. apply repeat_spec in X. now subst.
  - constructor; [apply repeat_length|]. apply Forall_forall. intros x X. apply repeat_spec in X. now subst.
  - apply tbl_wt.
Qed.
Lemma each_ok f (P : val -> val -> Prop) : forall l p, Forall (fun v => forall p, exists w q, f v p = Done w q /\ P v w) l ->
  exists l' q, each f l p = Done l' q /\ Forall2 P l l'.
Proof.
  induction l as [|v l IH]; intros p F; cbn [each]; [exists [], p; split; [reflexivity|constructor]|]. inversion F as [|? ? F1 F2]; subst.
  destruct (F1 p) as (w & q & E1 & P1). destruct (IH q F2) as (l' & q' & E2 & P2). exists (w :: l'), q'. rewrite E1. cbn [rbind]. rewrite E2. split; [reflexivity|now constructor].
Qed.
Lemma members_ok f (P : ty -> val -> val -> Prop) : forall ts l p, Forall2 (fun t v => forall p, exists w q, f t v p = Done w q /\ P t v w) ts l ->
  exists l' q, members f ts l p = Done l' q /\ all3 P ts l l'.
Proof.
  intros ts l p F. revert p. induction F as [|t v ts l F1 F2 IH]; intros p; cbn [members]; [exists [], p; split; [reflexivity|constructor]|].
  destruct (F1 p) as (w & q & E1 & P1). destruct (IH q) as (l' & q' & E2 & P2). exists (w :: l'), q'. rewrite E1. cbn [rbind]. rewrite E2. split; [reflexivity|now constructor].
Qed.
Lemma inserts_ok m hs f (P : val -> Prop) : (forall p, exists w q, f p = Done w q /\ P w) -> forall n l p,
  exists x q, inserts m hs f n l p = Done (l ++ x) q /\ (length x <= n)%nat /\ Forall P x.
Proof.
  intros F. induction n as [|n IH]; intros l p; cbn [inserts]; [exists [], p; rewrite app_nil_r; repeat split; [cbn; lia|constructor]|].
  destruct (F p) as (w & q & E & PW). rewrite E. cbn [rbind]. destruct (_ && _)%bool.
  - destruct (IH l q) as (x & q' & E2 & L & PX). exists x, q'. repeat split; [exact E2|lia|exact PX].
  - destruct (IH (l ++ [w]) q) as (x & q' & E2 & L & PX). exists (w :: x), q'. rewrite <- app_assoc in E2. repeat split; [exact E2|cbn [length]; lia|now constructor].
Qed.
(** all keys that are inserted are equal: the first one excludes the others *)
Lemma inserts_key hs f k : (forall l v, hs l v = has (map key l) (key v)) -> (forall l x, In x l -> has l x = true) -> (forall p, exists w q, f p = Done (VP k w) q) -> forall n l p l' q,
  inserts false hs f n l p = Done l' q -> l' = l \/ exists w, l' = l ++ [VP k w] /\ ~ In k (map key l).
Proof.
  intros HS HR F. induction n as [|n IH]; intros l p l' q; cbn [inserts]; [intros E; left; congruence|].
  destruct (F p) as (w & q1 & E1). rewrite E1. cbn [rbind negb andb]. rewrite HS. cbn [key]. destruct (has (map key l) k) eqn:H; [apply IH|].
  intros E. apply IH in E. right. exists w. assert (NI : ~ In k (map key l)) by (intros C; apply HR in C; congruence). split; [|exact NI].
  destruct E as [->|(w' & _ & NI')]; [reflexivity|]. exfalso. apply NI'. rewrite map_app. apply in_or_app. right. now left.
Qed.

Theorem C98_valid : (forall i, unit_dbl (g i)) -> (forall l x, In x l -> has l x = true) ->
  forall n t v p, good n t -> wt t v -> exists w q, rinit n t v p = Done w q /\ inited t v w.
Proof.
  intros U HR. induction n as [|n IH]; intros t v p G WT; [inversion G|].
  assert (TEN : forall p, (N.to_nat (trunc (fmul 10 (g p))) < 10)%nat) by (intros p0; pose proof (mul_trunc 10 (g p0) (U p0) ltac:(lia)); lia).
  inversion G; subst; inversion WT; subst; cbn [Rand_Model.rinit on_list on_obj].
  - cbv zeta. pose proof (int_range b (g p) (U p) ltac:(assumption)) as L. apply N.ltb_lt in L as L'. rewrite L'. do 2 eexists. split; [reflexivity|now constructor].
  - do 2 eexists. split; [reflexivity|constructor].
  - do 2 eexists. split; [reflexivity|constructor]. now apply char_range.
  - do 2 eexists. split; [reflexivity|constructor; apply U].
  - cbv zeta. do 2 eexists. split; [reflexivity|]. destruct (chars_range U (N.to_nat (trunc (fmul 10 (g p)))) (S p)) as [A B]. constructor; [rewrite B; apply TEN|exact A].
  - pose proof (mul_trunc (key_count keys) (g p) (U p) (key_count_pos keys ltac:(assumption))) as L. pose proof (key_count_le keys) as L2.
    destruct (nth_error keys (N.to_nat (trunc (fmul (key_count keys) (g p))))) as [[a y]|] eqn:E.
    + do 2 eexists. split; [reflexivity|]. constructor. apply nth_error_In in E. now apply (in_map snd) in E.
    + apply nth_error_None in E. lia.
  - set (k := N.to_nat (trunc (fmul 10 (g p)))). pose proof (TEN p) as T. fold k in T. clearbody k.
    destruct (each_ok (rinit n t0) (inited t0) (resize tbl t0 l k) (S p)) as (l' & q & E & P).
    + apply Forall_forall. intros x X p0. apply IH; [assumption|]. unfold resize in X. apply in_app_or in X as [X|X].
      * rewrite Forall_forall in *. match goal with H : forall x, In x l -> _ |- _ => apply H end. rewrite <- (firstn_skipn k l). apply in_or_app. now left.
      * apply repeat_spec in X. subst. apply dflt_wt.
    + rewrite E. do 2 eexists. split; [reflexivity|]. econstructor; [exact T|exact P].
  - destruct (each_ok (rinit n t0) (inited t0) l (S p)) as (l' & q & E & P).
    + apply Forall_forall. intros x X p0. apply IH; [assumption|]. rewrite Forall_forall in *. auto.
    + rewrite E. do 2 eexists. split; [reflexivity|]. now constructor.
  - destruct (IH t0 v0 p) as (a & q & E1 & P1); [assumption..|]. destruct (IH u w q) as (b & q' & E2 & P2); [assumption..|]. rewrite E1. cbn [rbind]. rewrite E2.
    do 2 eexists. split; [reflexivity|now constructor].
  - set (k := N.to_nat (trunc (fmul 10 (g p)))). pose proof (TEN p) as T. fold k in T. clearbody k.
    destruct (inserts_ok m has (rinit n t0 (dflt t0)) (inited t0 (dflt t0))) with (n := k) (l := l) (p := S p) as (x & q & E & L & P).
    + intros p0. apply IH; [assumption|apply dflt_wt].
    + rewrite E. do 2 eexists. split; [reflexivity|]. constructor; [lia|exact P].
  - set (j := N.to_nat (trunc (fmul 10 (g p)))). pose proof (TEN p) as T. fold j in T. clearbody j. set (hs := fun l x => has (map key l) (key x)).
    set (f := fun p => rmap (VP (dflt k)) (rinit n t0 (dflt t0) p)).
    assert (F : forall p, exists w q, f p = Done (VP (dflt k) w) q /\ inited t0 (dflt t0) w).
    { intros p0. destruct (IH t0 (dflt t0) p0) as (w & q & E & P); [assumption|apply dflt_wt|]. exists w, q. unfold f. rewrite E. now split. }
    destruct (inserts_ok m hs f (fun y => exists w, y = VP (dflt k) w /\ inited t0 (dflt t0) w)) with (n := j) (l := l) (p := S p) as (x & q & E & L & P).
    { intros p0. destruct (F p0) as (w & q & E & P). exists (VP (dflt k) w), q. split; [exact E|]. now exists w. }
    assert (X : exists ws, x = map (VP (dflt k)) ws /\ Forall (inited t0 (dflt t0)) ws).
    { clear - P. induction P as [|y x (w & -> & P1) P2 (ws & -> & P3)]; [exists []; now split|]. exists (w :: ws). split; [reflexivity|now constructor]. }
    destruct X as (ws & -> & P'). rewrite E. do 2 eexists. split; [reflexivity|]. rewrite map_length in L. constructor; [lia| |exact P'].
    intros ->. destruct (inserts_key hs f (dflt k)) with (n := j) (l := l) (p := S p) (l' := l ++ map (VP (dflt k)) ws) (q := q) as [A|(w & A & NI)].
    + reflexivity.
    + exact HR.
    + intros p0. destruct (F p0) as (w & q0 & E0 & _). now exists w, q0.
    + exact E.
    + rewrite <- app_nil_r in A. apply app_inv_head in A. apply map_eq_nil in A as ->. cbn. split; [lia|congruence].
    + apply app_inv_head in A. apply (f_equal (@length val)) in A. rewrite map_length in A. cbn [length] in A. split; [lia|intros _; exact NI].
  - do 2 eexists. split; [reflexivity|constructor].
  - do 2 eexists. split; [reflexivity|constructor].
  - do 2 eexists. split; [reflexivity|constructor].
  - do 2 eexists. split; [reflexivity|constructor].
  - destruct (IH t0 (dflt t0) p) as (w & q & E & P); [assumption|apply dflt_wt|]. rewrite E. do 2 eexists. split; [reflexivity|now constructor].
  - destruct (IH t0 (dflt t0) p) as (w & q & E & P); [assumption|apply dflt_wt|]. rewrite E. do 2 eexists. split; [reflexivity|now constructor].
  - destruct (IH t0 v0 p) as (w & q & E & P); [assumption..|]. rewrite E. do 2 eexists. split; [reflexivity|now constructor].
  - do 2 eexists. split; [reflexivity|constructor].
  - destruct (members_ok (rinit n) inited (fst (tbl k)) l p) as (l' & q & E & P).
    + match goal with H : Forall (good n) _, H2 : Forall2 wt _ _ |- _ => revert H; generalize H2; clear - IH end. intros F2 F. induction F2 as [|t v ts l W1 W2 IH2]; [constructor|].
      inversion F; subst. constructor; [intros p0; now apply IH|auto].
    + rewrite E. do 2 eexists. split; [reflexivity|now constructor].
Qed.
End Spec.
Print Assumptions C98_valid.

(** ** Nothing is left out: every value below the bound comes out of some draw *)
Lemma rne_err2 a b : 0 < b -> 2 * a <= 2 * (rne a b * b) + b.
Proof.
  intros B. unfold rne. pose proof (N.div_mod a b ltac:(lia)) as D. pose proof (N.mod_lt a b ltac:(lia)) as M.
  set (q := a / b) in *. set (r := a mod b) in *. clearbody q r.
  destruct (N.ltb_spec (2 * r) b); [nia|]. destruct (N.ltb_spec b (2 * r)); [nia|]. destruct (N.even q); nia.
Qed.
Lemma rnd_err p b : p < 2 ^ b -> 53 <= b -> 2 * rnd53 p <= 2 * p + 2 ^ (b - 53) /\ 2 * p <= 2 * rnd53 p + 2 ^ (b - 53).
Proof.
  intros L B. unfold rnd53. destruct (N.ltb_spec p (2 ^ 53)) as [|G]; [split; lia|]. cbv zeta. set (k := N.log2 p - 52).
  assert (LG : N.log2 p < b) by (apply N.log2_lt_pow2; [pose proof (pow_pos 53)|]; lia).
  assert (2 ^ k <= 2 ^ (b - 53)) by (apply N.pow_le_mono_r; lia).
  pose proof (rne_err p (2 ^ k) (pow_pos k)). pose proof (rne_err2 p (2 ^ k) (pow_pos k)). split; lia.
Qed.
Theorem C98_reach : forall n i, n <= 2 ^ 32 -> i < n -> exists r, unit_dbl r /\ trunc (fmul n r) = i.
Proof.
  intros n i L I0. set (m := (2 * i + 1) * 2 ^ 52 / n). exists (m, 53). pose proof (N.div_mod ((2 * i + 1) * 2 ^ 52) n ltac:(lia)) as D. pose proof (N.mod_lt ((2 * i + 1) * 2 ^ 52) n ltac:(lia)) as M.
  fold m in D. set (d := _ mod n) in *. clearbody m d.
  assert (ML : m < 2 ^ 53). { change (2 ^ 53) with 9007199254740992. change (2 ^ 52) with 4503599627370496 in D. nia. }
  split; [split; cbn [fst snd]; lia|]. unfold trunc, fmul. cbn [fst snd].
  destruct (rnd_err (n * m) 85) as [A B]; [|lia|].
  { change (2 ^ 85) with (2 ^ 32 * 2 ^ 53). apply (N.lt_le_trans _ (n * 2 ^ 53)); [apply N.mul_lt_mono_pos_l; lia|now apply N.mul_le_mono_r]. }
  change (2 ^ (85 - 53)) with 4294967296 in *. change (2 ^ 32) with 4294967296 in L. change (2 ^ 52) with 4503599627370496 in D. change (2 ^ 53) with 9007199254740992 in *.
  set (x := rnd53 (n * m)) in *. clearbody x. set (y := n * m) in *. clearbody y.
  symmetry. apply N.div_unique with (r := x - 9007199254740992 * i); lia.
Qed.
Print Assumptions C98_reach.
(** each key of an enumeration without repeated values is chosen by some draw *)
Theorem C98_enum_reach : forall tbl has keys a z v p, NoDup (map snd keys) -> len keys <= 2 ^ 32 -> In (a, z) keys ->
  exists r, unit_dbl r /\ forall g, g p = r -> rinit tbl g has 1 (TEnum keys) v p = Done (VE z) (S p).
Proof.
  intros tbl has keys a z v p ND L I0. apply In_nth_error in I0 as [i E]. assert (KC : key_count keys = len keys). { unfold key_count, len. rewrite nodup_fixed_point by exact ND. now rewrite map_length. }
  destruct (C98_reach (len keys) (N.of_nat i) L) as (r & U & T).
  { assert (i < length keys)%nat by (apply nth_error_Some; congruence). unfold len. lia. }
  exists r. split; [exact U|]. intros g G. cbn [rinit]. rewrite G, KC, T, Nat2N.id, E. reflexivity.
Qed.
Print Assumptions C98_enum_reach.

(** ** A class that holds a smart pointer to itself *)
Lemma members_done f ts l p l' q : members f ts l p = Done l' q -> forall t, In t ts -> exists v p1 w q1, f t v p1 = Done w q1.
Proof.
  revert l p l' q. induction ts as [|u ts IH]; intros l p l' q E t T; [destruct T|]. destruct l as [|v l]; cbn [members] in E; [discriminate|].
  destruct (f u v p) as [w p1| |] eqn:E1; cbn [rbind] in E; [|discriminate..]. destruct T as [<- |T]; [now exists v, p, w, p1|].
  destruct (members f ts l p1) as [l2 p2| |] eqn:E2; cbn [rbind] in E; [|discriminate..]. eapply IH; [exact E2|exact T].
Qed.
(** no amount of recursion is enough, whatever the generator *)
Theorem C98_recursive : forall tbl g has k, In (TShared (TObj k)) (fst (tbl k)) ->
  forall fuel v p w q, rinit tbl g has fuel (TObj k) v p <> Done w q.
Proof.
  intros tbl g has k I0 fuel. induction fuel as [fuel IH] using lt_wf_ind. intros v p w q E. destruct fuel as [|fuel]; [discriminate|]. cbn [rinit] in E.
  destruct v; try discriminate. cbn [on_obj] in E. destruct (members _ _ _ _) as [l' q'| |] eqn:E1; [|discriminate..].
  destruct (members_done _ _ _ _ _ _ E1 _ I0) as (v & p1 & w1 & q1 & E2). destruct fuel as [|fuel]; [discriminate|]. cbn [rinit] in E2.
  destruct (rinit tbl g has fuel (TObj k) (dflt tbl (TObj k)) p1) as [w2 q2| |] eqn:E3; [|discriminate..]. apply (IH fuel) in E3; [exact E3|lia].
Qed.
Print Assumptions C98_recursive.

(** ** What the generator of the standard library does once in 2^31 calls *)
Definition no_tbl : nat -> list ty * list val := fun _ => ([], []).
Definition always (k : N) : nat -> dbl := fun _ => std_rand k.
(** an enumeration whose values differ is read behind its table of keys *)
Theorem C98_enum_past : forall tbl g has keys v p, NoDup (map snd keys) -> len keys <= 2 ^ 32 -> g p = std_rand RAND_MAX -> rinit tbl g has 1 (TEnum keys) v p = Undef.
Proof.
  intros tbl g has keys v p ND L G. cbn [rinit]. assert (KC : key_count keys = len keys). { unfold key_count, len. rewrite nodup_fixed_point by exact ND. now rewrite map_length. }
  rewrite G, KC. assert (T : trunc (fmul (len keys) (std_rand RAND_MAX)) = len keys).
  { change (std_rand RAND_MAX) with (2 ^ 53, 53). unfold trunc, fmul. cbn [fst snd]. rewrite N.mul_comm.
    destruct (rnd_err (2 ^ 53 * len keys) 86) as [A B]; [|lia|].
    { change (2 ^ 86) with (2 ^ 53 * 2 ^ 33). apply N.mul_lt_mono_pos_l; [apply pow_pos|]. change (2 ^ 33) with (2 * 2 ^ 32). pose proof (pow_pos 32). lia. }
    assert (X : rnd53 (2 ^ 53 * len keys) = 2 ^ 53 * len keys).
    { destruct (N.eq_dec (len keys) 0) as [-> |NZ]; [reflexivity|]. unfold rnd53. destruct (N.ltb_spec (2 ^ 53 * len keys) (2 ^ 53)) as [H|H]; [reflexivity|]. cbv zeta.
      assert (LG : N.log2 (2 ^ 53 * len keys) < 86). { apply N.log2_lt_pow2; [pose proof (pow_pos 53); lia|]. change (2 ^ 86) with (2 ^ 53 * 2 ^ 33). apply N.mul_lt_mono_pos_l; [apply pow_pos|]. change (2 ^ 33) with (2 * 2 ^ 32). pose proof (pow_pos 32). lia. }
      set (k := _ - 52). assert (K : k < 53) by lia. replace (2 ^ 53 * len keys) with (2 ^ (53 - k) * len keys * 2 ^ k).
      2: { replace 53 with (53 - k + k) at 2 by lia. rewrite N.pow_add_r. lia. }
      f_equal. apply N.le_antisymm; [apply rne_le|apply rne_ge]; try apply pow_pos; lia. }
    rewrite X, N.mul_comm. apply N.div_mul. pose proof (pow_pos 53). lia. }
  rewrite T. unfold len. rewrite Nat2N.id. destruct (nth_error keys (length keys)) as [x|] eqn:E; [|reflexivity]. assert (length keys < length keys)%nat by (apply nth_error_Some; congruence). lia.
Qed.
Print Assumptions C98_enum_past.

Definition abc : list (list ascii * Z) := [(bs "a", 1%Z); (bs "b", 2%Z); (bs "c", 5%Z)].
(** rand() can return 1, against the comment at its head *)
Theorem C98_rand_one_refuted : exists k, k <= RAND_MAX /\ ~ unit_dbl (std_rand k) /\ 1 <= trunc (std_rand k).
Proof. exists RAND_MAX. split; [apply N.le_refl|]. split; [|vm_compute; congruence]. rewrite C98_rand by apply N.le_refl. congruence. Qed.
Print Assumptions C98_rand_one_refuted.
(** then an enumeration is set from what follows its table *)
Theorem C98_enum_refuted : exists keys k v, keys <> [] /\ k <= RAND_MAX /\ rinit no_tbl (always k) (fun _ _ => false) 1 (TEnum keys) v 0 = Undef.
Proof. exists abc, RAND_MAX, (VE 0). split; [discriminate|]. split; [apply N.le_refl|vm_compute; reflexivity]. Qed.
Print Assumptions C98_enum_refuted.
(** and a 64 bit integer from a double that does not fit *)
Theorem C98_long_refuted : exists k v, k <= RAND_MAX /\ rinit no_tbl (always k) (fun _ _ => false) 1 (TInt 63) v 0 = Undef.
Proof. exists RAND_MAX, (VI 0). split; [apply N.le_refl|vm_compute; reflexivity]. Qed.
Print Assumptions C98_long_refuted.
(** and a character is 127, which is not printable *)
Theorem C98_char_refuted : exists k v, k <= RAND_MAX /\ rinit no_tbl (always k) (fun _ _ => false) 1 TChar v 0 = Done (VC 127) 1%nat.
Proof. exists RAND_MAX, (VC 0). split; [apply N.le_refl|vm_compute; reflexivity]. Qed.
Print Assumptions C98_char_refuted.
(** enumerators that come after two with the same value are never chosen *)
Theorem C98_enum_missed_refuted : exists keys z, In z (map snd keys) /\
  forall tbl g has v p w q, unit_dbl (g p) -> rinit tbl g has 1 (TEnum keys) v p = Done w q -> w <> VE z.
Proof.
  exists [(bs "red", 0%Z); (bs "crimson", 0%Z); (bs "blue", 1%Z)], 1%Z. split; [right; right; now left|]. intros tbl g has v p w q U E. cbn [rinit] in E.
  change (key_count _) with 2 in E. pose proof (mul_trunc 2 (g p) U ltac:(lia)) as T. set (x := trunc _) in *. clearbody x.
  assert (x = 0 \/ x = 1) as [-> | ->] by lia; vm_compute in E; inversion E; discriminate.
Qed.
Print Assumptions C98_enum_missed_refuted.
(** arrays are not initialised: their elements are passed on as constants *)
Theorem C98_array_refuted : exists n t v, wt no_tbl (TArr n t) v /\ forall tbl g has fuel p, rinit tbl g has (S fuel) (TArr n t) v p = Done v p.
Proof. exists 2%nat, (TInt 31), (VL [VI 0; VI 0]). split; [repeat constructor|reflexivity]. Qed.
Print Assumptions C98_array_refuted.
(** a map never gets more than one new key *)
Theorem C98_map_refuted : exists t, good no_tbl 2 t /\ forall g has v w p q, (forall i, unit_dbl (g i)) -> (forall l x, In x l -> has l x = true) ->
  v = VL [] -> rinit no_tbl g has 2 t v p = Done w q -> w = VL [] \/ exists z, w = VL [VP (VI 0) (VI z)].
Proof.
  exists (TMap false (TInt 31) (TInt 31)). split; [repeat constructor|]. intros g has v w p q U HR -> E.
  destruct (C98_valid no_tbl g has) with (n := 2%nat) (t := TMap false (TInt 31) (TInt 31)) (v := VL []) (p := p) as (w' & q' & E' & P); try assumption.
  - intros k. constructor. constructor.
  - repeat constructor.
  - repeat constructor.
  - rewrite E in E'. inversion E'; subst w' q'. inversion P as [| | | | | | | | | |m k t l x L1 L2 F| | | | | | | |]; subst. destruct (L2 eq_refl) as [L3 _].
    destruct x as [|x1 [|x2 x3]]; cbn [length] in L3; [now left| |lia]. right. inversion F as [|? ? F1 F2]; subst. inversion F1; subst. now eexists.
Qed.
Print Assumptions C98_map_refuted.
Definition node_tbl : nat -> list ty * list val := fun _ => ([TInt 31; TShared (TObj 0)], [VI 0; VNone]).
(** a list that owns its tail: random_init does not come back *)
Theorem C98_recursive_refuted : exists tbl t v, wt tbl t v /\ forall g has fuel p w q, rinit tbl g has fuel t v p <> Done w q.
Proof.
  exists node_tbl, (TObj 0), (VObj [VI 0; VNone]). split; [repeat constructor|]. intros g has fuel p w q. apply C98_recursive. right. now left.
Qed.
Print Assumptions C98_recursive_refuted.

(** ** Examples *)
Definition ex_tbl : nat -> list ty * list val := fun k =>
  match k with
  | O => ([TInt 31; TStr; TEnum abc; TSeq (TObj 1); TShared (TObj 1); TConst (TInt 31); TMap false TStr TBool], [VI 7; VS []; VE 1; VL []; VNone; VI 42; VL []])
  | _ => ([TChar; TSet false (TInt 8)], [VC 0; VL []])
  end.
Definition ex_gen (i : nat) : dbl := std_rand (N.of_nat i * 1103515245 mod RAND_MAX).
Definition ex_has (l : list val) (v : val) : bool := true.
Example C98_ex : (forall i, unit_dbl (ex_gen i)) /\ (forall k, wt ex_tbl (TObj k) (VObj (snd (ex_tbl k)))) /\ good ex_tbl 5 (TObj 0) /\ (forall l x, In x l -> ex_has l x = true) /\
  match rinit ex_tbl ex_gen ex_has 5 (TObj 0) (VObj (snd (ex_tbl 0))) 1 with Done _ q => (10 <? q)%nat = true | _ => False end.
Proof.
  split; [|split; [|split]].
  - intros i. apply C98_rand; unfold ex_gen; pose proof (N.mod_lt (N.of_nat i * 1103515245) RAND_MAX ltac:(discriminate)); lia.
  - intros [|k]; repeat constructor.
  - repeat first [constructor | discriminate].
  - split; [reflexivity|]. vm_compute. reflexivity.
Qed.
Example C98_enum_ex : NoDup (map snd abc) /\ len abc <= 2 ^ 32 /\ In (bs "c", 5%Z) abc.
Proof. split; [repeat constructor; cbn; intuition discriminate|]. split; [vm_compute; congruence|right; right; now left]. Qed.
Example C98_recursive_ex : In (TShared (TObj 0)) (fst (node_tbl 0)).
Proof. right. now left. Qed.

(** ** Which calls of rand() are used for what *)
(** scalars use one call each; a bool is true for the upper half *)
Theorem C98_scalar : forall tbl g has n t v p w q, rinit tbl g has (S n) t v p = Done w q ->
  match t with
  | TBool => exists b, w = VB b /\ q = S p /\ (b = true <-> 2 ^ snd (g p) <= 2 * fst (g p))
  | TFlt => w = VF (g p) /\ q = S p
  | TInt _ | TChar | TEnum _ => q = S p
  | TArr _ _ | TPtr | TConst _ | TExcl _ => w = v /\ q = p
  | _ => True
  end.
Proof.
  intros tbl g has n t v p w q E. destruct t; cbn [rinit] in E; try exact I.
  - cbv zeta in E. destruct (_ <? _); congruence.
  - inversion E; subst. eexists. split; [reflexivity|]. split; [reflexivity|]. apply N.leb_le.
  - congruence.
  - split; congruence.
  - destruct (nth_error _ _) as [[a z]|]; congruence.
  - split; congruence.
  - split; congruence.
  - split; congruence.
  - split; congruence.
Qed.
Print Assumptions C98_scalar.
(** a string: one call for its length, then one for each character *)
Theorem C98_string : forall tbl g has n v p, exists s, rinit tbl g has (S n) TStr v p = Done (VS s) (p + 1 + length s)
  /\ (forall r, g p = r -> len s = trunc (fmul 10 r))
  /\ forall i c u, nth_error s i = Some c -> rinit tbl g has (S n) TChar u (p + 1 + i) = Done (VC c) (p + 2 + i).
Proof.
  intros tbl g has n v p. cbn [rinit]. set (k := trunc (fmul 10 (g p))). exists (rchars g (N.to_nat k) (S p)).
  assert (L : forall j p, length (rchars g j p) = j) by (clear; induction j as [|j IH]; intros p; cbn [rchars length]; [reflexivity|now rewrite IH]).
  split; [cbv zeta; rewrite L; f_equal; lia|]. split.
  - intros r <-. unfold len. rewrite L. fold k. lia.
  - intros i c u E. cbn [rinit]. assert (X : forall j p i c, nth_error (rchars g j p) i = Some c -> c = rchar g (p + i)).
    { clear. induction j as [|j IH]; intros p i c; cbn [rchars]; [destruct i; discriminate|]. destruct i as [|i]; cbn [nth_error]; [intros E; rewrite Nat.add_0_r; congruence|].
      intros E. apply IH in E. rewrite E. f_equal. lia. }
    apply X in E. subst c. replace (S p + i)%nat with (p + 1 + i)%nat by lia. f_equal. lia.
Qed.
Print Assumptions C98_string.
(** [used t w k]: an object of type t with the value w was made with k calls *)
Inductive used (tbl : nat -> list ty * list val) : ty -> val -> nat -> Prop :=
| U_int b v : used tbl (TInt b) v 1 | U_bool v : used tbl TBool v 1 | U_char v : used tbl TChar v 1 | U_flt v : used tbl TFlt v 1 | U_enum ks v : used tbl (TEnum ks) v 1
| U_str s : used tbl TStr (VS s) (1 + length s)
| U_seq t l ks : Forall2 (used tbl t) l ks -> used tbl (TSeq t) (VL l) (1 + list_sum ks)
| U_stdarr n t l ks : Forall2 (used tbl t) l ks -> used tbl (TStdArr n t) (VL l) (1 + list_sum ks)
| U_pair t u v w j k : used tbl t v j -> used tbl u w k -> used tbl (TPair t u) (VP v w) (j + k)
| U_arr n t v : used tbl (TArr n t) v 0 | U_ptr v : used tbl TPtr v 0 | U_const t v : used tbl (TConst t) v 0 | U_excl t v : used tbl (TExcl t) v 0
| U_sh t v k : used tbl t v k -> used tbl (TShared t) (VSome v) k
| U_shn t v k : used tbl t v k -> used tbl (TSharedN t) (VSome v) k | U_shn0 t : used tbl (TSharedN t) VNone 0
| U_obj k l js : all3 (used tbl) (fst (tbl k)) l js -> used tbl (TObj k) (VObj l) (list_sum js).
(** no sets or maps: what is drawn for an element that is already there is lost *)
Inductive no_sets (tbl : nat -> list ty * list val) : nat -> ty -> Prop :=
| NS_leaf n t : match t with TSeq _ | TStdArr _ _ | TPair _ _ | TSet _ _ | TMap _ _ _ | TShared _ | TSharedN _ | TObj _ => False | _ => True end -> no_sets tbl (S n) t
| NS_seq n t : no_sets tbl n t -> no_sets tbl (S n) (TSeq t)
| NS_stdarr n k t : no_sets tbl n t -> no_sets tbl (S n) (TStdArr k t)
| NS_pair n t u : no_sets tbl n t -> no_sets tbl n u -> no_sets tbl (S n) (TPair t u)
| NS_sh n t : no_sets tbl n t -> no_sets tbl (S n) (TShared t)
| NS_shn n t : no_sets tbl n t -> no_sets tbl (S n) (TSharedN t)
| NS_obj n k : Forall (no_sets tbl n) (fst (tbl k)) -> no_sets tbl (S n) (TObj k).
Lemma each_used f (U : val -> nat -> Prop) : (forall v p w q, f v p = Done w q -> exists k, U w k /\ q = (p + k)%nat) ->
  forall l p l' q, each f l p = Done l' q -> exists ks, Forall2 U l' ks /\ q = (p + list_sum ks)%nat.
Proof.
  intros F. induction l as [|v l IH]; intros p l' q; cbn [each]; [intros E; inversion E; subst; exists []; split; [constructor|cbn; lia]|].
  destruct (f v p) as [w p1| |] eqn:E1; cbn [rbind]; [|discriminate..]. destruct (each f l p1) as [l1 p2| |] eqn:E2; cbn [rbind]; [|discriminate..].
  intros E. inversion E; subst. apply F in E1 as (k & U1 & ->). apply IH in E2 as (ks & U2 & ->). exists (k :: ks). split; [now constructor|]. change (list_sum (k :: ks)) with (k + list_sum ks)%nat. lia.
Qed.
Lemma members_used f (U : ty -> val -> nat -> Prop) ts : Forall (fun t => forall v p w q, f t v p = Done w q -> exists k, U t w k /\ q = (p + k)%nat) ts ->
  forall l p l' q, members f ts l p = Done l' q -> exists ks, all3 U ts l' ks /\ q = (p + list_sum ks)%nat.
Proof.
  induction 1 as [|t ts F _ IH]; intros l p l' q; destruct l as [|v l]; cbn [members]; try discriminate.
  - intros E. inversion E; subst. exists []. split; [constructor|cbn; lia].
  - destruct (f t v p) as [w p1| |] eqn:E1; cbn [rbind]; [|discriminate..]. destruct (members f ts l p1) as [l1 p2| |] eqn:E2; cbn [rbind]; [|discriminate..].
    intros E. inversion E; subst. apply F in E1 as (k & U1 & ->). apply IH in E2 as (ks & U2 & ->). exists (k :: ks). split; [now constructor|]. change (list_sum (k :: ks)) with (k + list_sum ks)%nat. lia.
Qed.
Theorem C98_draws : forall tbl g has n t v p w q, no_sets tbl n t -> rinit tbl g has n t v p = Done w q -> exists k, used tbl t w k /\ q = (p + k)%nat.
Proof.
  intros tbl g has. induction n as [|n IH]; intros t v p w q NS E; [discriminate|]. inversion NS as [? ? LF|? ? N1|? ? ? N1|? ? ? N1 N2|? ? N1|? ? N1|? ? N1]; subst.
  - pose proof (C98_scalar tbl g has n t v p w q E) as SC. destruct t; try (destruct LF; fail).
    + exists 1%nat. split; [constructor|]. lia.
    + exists 1%nat. destruct SC as (b & _ & -> & _). split; [constructor|]. lia.
    + exists 1%nat. split; [constructor|]. lia.
    + exists 1%nat. split; [constructor|]. lia.
    + destruct (C98_string tbl g has n v p) as (s & E2 & _). rewrite E in E2. inversion E2; subst. exists (1 + length s)%nat. split; [constructor|]. lia.
    + exists 1%nat. split; [constructor|]. lia.
    + exists 0%nat. split; [constructor|]. lia.
    + exists 0%nat. split; [constructor|]. lia.
    + exists 0%nat. split; [constructor|]. lia.
    + exists 0%nat. split; [constructor|]. lia.
  - cbn [rinit] in E. destruct v; try discriminate. cbn [on_list] in E. destruct (each _ _ _) as [l' p'| |] eqn:E1; [|discriminate..]. cbn in E. inversion E; subst.
    apply each_used with (U := used tbl t0) in E1 as (ks & U & ->); [|intros; eapply IH; eassumption]. eexists. split; [constructor; exact U|]. lia.
  - cbn [rinit] in E. destruct v; try discriminate. cbn [on_list] in E. destruct (each _ _ _) as [l' p'| |] eqn:E1; [|discriminate..]. cbn in E. inversion E; subst.
    apply each_used with (U := used tbl t0) in E1 as (ks & U & ->); [|intros; eapply IH; eassumption]. eexists. split; [constructor; exact U|]. lia.
  - cbn [rinit] in E. destruct v as [| | | | | | |a b| | | |]; try discriminate. destruct (rinit tbl g has n t0 a p) as [a' p1| |] eqn:E1; [|discriminate..]. cbn [rbind] in E.
    destruct (rinit tbl g has n u b p1) as [b' p2| |] eqn:E2; [|discriminate..]. cbn [rbind] in E. inversion E; subst. apply IH in E1 as (j & U1 & ->); [|assumption]. apply IH in E2 as (k & U2 & ->); [|assumption].
    exists (j + k)%nat. split; [now constructor|]. lia.
  - cbn [rinit] in E. destruct (rinit _ _ _ _ _ _ _) as [a' p1| |] eqn:E1; [|discriminate..]. cbn in E. inversion E; subst. apply IH in E1 as (j & U1 & ->); [|assumption]. exists j. split; [now constructor|reflexivity].
  - cbn [rinit] in E. destruct v; try discriminate.
    + destruct (rinit _ _ _ _ _ _ _) as [a' p1| |] eqn:E1; [|discriminate..]. cbn in E. inversion E; subst. apply IH in E1 as (j & U1 & ->); [|assumption]. exists j. split; [now constructor|reflexivity].
    + inversion E; subst. exists 0%nat. split; [constructor|lia].
  - cbn [rinit] in E. destruct v; try discriminate. cbn [on_obj] in E. destruct (members _ _ _ _) as [l' p'| |] eqn:E1; [|discriminate..]. cbn in E. inversion E; subst.
    apply members_used with (U := used tbl) in E1 as (ks & U & ->); [exists (list_sum ks); split; [now constructor|reflexivity]|].
    eapply Forall_impl; [|exact N1]. intros t NT v0 p0 w0 q0. now apply IH.
Qed.
Print Assumptions C98_draws.
Example C98_draws_ex : no_sets (fun _ => ([TInt 31; TStr], [VI 0; VS []])) 2 (TObj 0) /\
  exists w, rinit (fun _ => ([TInt 31; TStr], [VI 0; VS []])) (always 1073741824) ex_has 2 (TObj 0) (VObj [VI 0; VS []]) 0 = Done w 7%nat.
Proof. split; [apply NS_obj; repeat constructor|]. eexists. vm_compute. reflexivity. Qed.

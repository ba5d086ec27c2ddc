From Verif Require Import Base.
Ltac Zify.zify_post_hook ::= Z.div_mod_to_equations.

Lemma len_nil A : len (@nil A) = 0%N. Proof. reflexivity. Qed.
Lemma len_cons A (a : A) l : len (a :: l) = (1 + len l)%N.
Proof. unfold len; cbn [length]; lia. Qed.
Lemma len_app A (l1 l2 : list A) : len (l1 ++ l2) = (len l1 + len l2)%N.
Proof. unfold len; rewrite app_length; lia. Qed.
Lemma len_repeat A (a : A) n : len (repeat a n) = N.of_nat n.
Proof. unfold len; rewrite repeat_length; lia. Qed.
Lemma len_map A B (f : A -> B) l : len (map f l) = len l.
Proof. unfold len; rewrite map_length; lia. Qed.
Lemma len_firstn A n (l : list A) : len (firstn n l) = N.min (N.of_nat n) (len l).
Proof. unfold len; rewrite firstn_length; lia. Qed.
Lemma len_skipn A n (l : list A) : len (skipn n l) = (len l - N.of_nat n)%N.
Proof. unfold len; rewrite skipn_length; lia. Qed.
Lemma len_length A (l : list A) : length l = N.to_nat (len l).
Proof. unfold len; lia. Qed.

Lemma N_of_ascii_lt c : (N_of_ascii c < 256)%N.
Proof. apply N_ascii_bounded. Qed.

Lemma le_length k n : length (le k n) = k.
Proof. revert n; induction k as [|k IH]; intro n; cbn; [reflexivity|now rewrite IH]. Qed.
Lemma le_len k n : len (le k n) = N.of_nat k.
Proof. unfold len; now rewrite le_length. Qed.

Lemma unle_le k n : (n < 256 ^ N.of_nat k)%N -> unle (le k n) = n.
Proof.
  revert n; induction k as [|k IH]; intros n Hn.
  - cbn in *. change (256 ^ N.of_nat 0)%N with 1%N in Hn. lia.
  - cbn [le unle].
    assert (Hm : (n mod 256 < 256)%N) by (apply N.mod_lt; lia).
    rewrite N_ascii_embedding by exact Hm.
    replace (N.of_nat (S k)) with (N.succ (N.of_nat k)) in Hn by lia.
    rewrite N.pow_succ_r' in Hn.
    rewrite IH by (apply N.div_lt_upper_bound; lia).
    rewrite N.add_comm. symmetry. apply N.div_mod. lia.
Qed.

Lemma unle_bound l : (unle l < 256 ^ len l)%N.
Proof.
  induction l as [|c l IH]; [cbn; lia|].
  rewrite len_cons. replace (1 + len l)%N with (N.succ (len l)) by lia.
  rewrite N.pow_succ_r'. cbn [unle].
  pose proof (N_of_ascii_lt c). lia.
Qed.

Lemma le_unle l : le (length l) (unle l) = l.
Proof.
  induction l as [|c l IH]; [reflexivity|].
  cbn [length le unle]. pose proof (N_of_ascii_lt c) as Hc.
  replace (N_of_ascii c + 256 * unle l)%N with (unle l * 256 + N_of_ascii c)%N by lia.
  rewrite N.add_comm, N.mod_add by lia. rewrite (N.mod_small _ 256) by lia.
  rewrite ascii_N_embedding.
  rewrite N.div_add by lia. rewrite N.div_small by lia. cbn [N.add].
  rewrite N.add_0_l. now rewrite IH.
Qed.

Lemma firstn_app_l A (l1 l2 : list A) n :
  n = length l1 -> firstn n (l1 ++ l2) = l1.
Proof.
  intros ->. rewrite firstn_app, Nat.sub_diag, firstn_all. apply app_nil_r.
Qed.
Lemma skipn_app_l A (l1 l2 : list A) n :
  n = length l1 -> skipn n (l1 ++ l2) = l2.
Proof.
  intros ->. rewrite skipn_app, Nat.sub_diag, skipn_all. reflexivity.
Qed.

Lemma W_eq : W = 18446744073709551616%N. Proof. reflexivity. Qed.
Lemma W_pos : (0 < W)%N. Proof. now rewrite W_eq. Qed.
Lemma P63 : (2 ^ 63)%N = 9223372036854775808%N. Proof. reflexivity. Qed.
Lemma skipn_skipn A (x y : nat) (l : list A) : skipn x (skipn y l) = skipn (x + y) l.
Proof.
  revert l; induction y as [|y IH]; intro l; [now rewrite Nat.add_0_r|].
  rewrite Nat.add_succ_r. destruct l as [|a l]; [now rewrite !skipn_nil|]. cbn. apply IH.
Qed.

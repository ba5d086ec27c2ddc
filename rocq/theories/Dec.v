(** * Decimal numerals as written by [std::ostream::operator<<] and read by [strtol] *)
From Verif Require Import Base Base_Proofs.

Definition digit (n : N) : ascii := ascii_of_N (48 + n).
Fixpoint dig (fuel : nat) (n : N) (acc : list ascii) : list ascii :=
  match fuel with
  | O => acc
  | S f => let acc' := digit (n mod 10) :: acc in
           if (n <? 10)%N then acc' else dig f (n / 10) acc'
  end.
(** the decimal digits of [n], most significant first ("0" for 0) *)
Definition dec (n : N) : list ascii := dig (S (N.size_nat n)) n [].
(** an [int]/[long] *)
Definition decZ (z : Z) : list ascii :=
  if (z <? 0)%Z then "-"%char :: dec (Z.to_N (- z)) else dec (Z.to_N z).

Definition digval (base : N) (c : ascii) : option N :=
  (let n := N_of_ascii c in
   let d := if (48 <=? n) && (n <=? 57) then Some (n - 48)
            else if (65 <=? n) && (n <=? 90) then Some (n - 55)
            else if (97 <=? n) && (n <=? 122) then Some (n - 87) else None in
   match d with Some v => if v <? base then Some v else None | None => None end)%N.
(** value of the longest prefix of digits, and whether there was any digit *)
Fixpoint digits (base : N) (s : list ascii) (acc : N) (any : bool) : N * bool :=
  match s with
  | c :: s' => match digval base c with
               | Some v => digits base s' (acc * base + v) true
               | None => (acc, any)
               end
  | [] => (acc, any)
  end.

Definition isdigit (c : ascii) : Prop := (48 <= N_of_ascii c <= 57)%N.

Lemma N_of_digit : forall n, (n < 10)%N -> N_of_ascii (digit n) = (48 + n)%N.
Proof. intros n H. unfold digit. rewrite N_ascii_embedding by lia. reflexivity. Qed.
Lemma digit_isdigit : forall n, (n < 10)%N -> isdigit (digit n).
Proof. intros n H. unfold isdigit. rewrite N_of_digit by exact H. lia. Qed.
Lemma digval_digit : forall base n, (n < 10)%N -> (10 <= base)%N -> digval base (digit n) = Some n.
Proof.
  intros base n H B. unfold digval. rewrite N_of_digit by exact H.
  replace ((48 <=? 48 + n) && (48 + n <=? 57))%N with true by lia.
  replace (48 + n - 48)%N with n by lia. replace (n <? base)%N with true by lia. reflexivity.
Qed.

Lemma dig_isdigit : forall f n acc, Forall isdigit acc -> Forall isdigit (dig f n acc).
Proof.
  induction f as [|f IH]; intros n acc H; cbn [dig]; [exact H|].
  assert (Forall isdigit (digit (n mod 10) :: acc)).
  { constructor; [|exact H]. apply digit_isdigit. apply N.mod_lt. lia. }
  destruct (n <? 10)%N; [assumption|]. now apply IH.
Qed.
Lemma dec_isdigit : forall n, Forall isdigit (dec n).
Proof. intros. apply dig_isdigit. constructor. Qed.
Lemma dig_nonempty : forall f n acc, acc <> [] -> dig f n acc <> [].
Proof.
  induction f as [|f IH]; intros n acc H; cbn [dig]; [exact H|].
  destruct (n <? 10)%N; [discriminate|]. apply IH. discriminate.
Qed.
Lemma dec_nonempty : forall n, dec n <> [].
Proof. intros n. unfold dec. cbn [dig]. destruct (n <? 10)%N; [discriminate|]. apply dig_nonempty. discriminate. Qed.

(** digits only: plain value *)
Definition value (s : list ascii) (acc : N) : N := fold_left (fun a c => a * 10 + (N_of_ascii c - 48))%N s acc.
Lemma value_dig : forall f n acc, (n < 2 ^ N.of_nat f)%N ->
  value (dig f n acc) 0 = (value acc n)%N.
Proof.
  induction f as [|f IH]; intros n acc H; cbn [dig].
  - change (2 ^ N.of_nat 0)%N with 1%N in H. replace n with 0%N by lia. reflexivity.
  - assert (E : value (digit (n mod 10) :: acc) (n / 10) = value acc n).
    { unfold value. cbn [fold_left]. rewrite N_of_digit by (apply N.mod_lt; lia).
      replace (n / 10 * 10 + (48 + n mod 10 - 48))%N with n; [reflexivity|].
      pose proof (N.div_mod' n 10). lia. }
    destruct (n <? 10)%N eqn:L.
    + rewrite <- E. rewrite (N.div_small n 10) by lia. reflexivity.
    + rewrite IH; [exact E|]. replace (N.of_nat (S f)) with (N.succ (N.of_nat f)) in H by lia.
      rewrite N.pow_succ_r' in H. pose proof (N.div_mod' n 10). pose proof (N.mod_lt n 10 ltac:(lia)). lia.
Qed.
Lemma size_bound : forall n, (n < 2 ^ N.of_nat (N.size_nat n))%N.
Proof.
  intros [|p]; [reflexivity|]. cbn [N.size_nat].
  induction p as [p IH|p IH|]; cbn [Pos.size_nat].
  - replace (N.of_nat (S (Pos.size_nat p))) with (N.succ (N.of_nat (Pos.size_nat p))) by lia.
    rewrite N.pow_succ_r'. lia.
  - replace (N.of_nat (S (Pos.size_nat p))) with (N.succ (N.of_nat (Pos.size_nat p))) by lia.
    rewrite N.pow_succ_r'. lia.
  - reflexivity.
Qed.
Lemma value_dec : forall n, value (dec n) 0 = n.
Proof.
  intros n. unfold dec. rewrite value_dig; [reflexivity|].
  replace (N.of_nat (S (N.size_nat n))) with (N.succ (N.of_nat (N.size_nat n))) by lia.
  rewrite N.pow_succ_r'. pose proof (size_bound n). lia.
Qed.
Lemma dec_inj : forall a b, dec a = dec b -> a = b.
Proof. intros a b H. rewrite <- (value_dec a), <- (value_dec b), H. reflexivity. Qed.

(** what may follow a numeral without being taken for part of it *)
Definition stops (s : list ascii) : Prop := match s with [] => True | c :: _ => digval 10 c = None end.
Lemma digits_app : forall s rest acc any, Forall isdigit s -> stops rest ->
  digits 10 (s ++ rest) acc any = (value s acc, any || negb (match s with [] => true | _ => false end)).
Proof.
  induction s as [|c s IH]; intros rest acc any H St.
  - cbn [app value fold_left negb orb]. rewrite orb_false_r. destruct rest as [|c r]; cbn [digits]; [reflexivity|].
    cbn in St. now rewrite St.
  - apply Forall_cons_iff in H as [H H']. cbn [app digits].
    assert (E : digval 10 c = Some (N_of_ascii c - 48)%N).
    { unfold digval, isdigit in *. replace ((48 <=? N_of_ascii c) && (N_of_ascii c <=? 57))%N with true by lia.
      replace (N_of_ascii c - 48 <? 10)%N with true by lia. reflexivity. }
    rewrite E, IH by assumption. cbn [value fold_left negb]. now rewrite !orb_true_r.
Qed.
Lemma digits_dec : forall n rest, stops rest -> digits 10 (dec n ++ rest) 0 false = (n, true).
Proof.
  intros n rest H. rewrite digits_app by (try apply dec_isdigit; exact H). rewrite value_dec.
  pose proof (dec_nonempty n). destruct (dec n); [congruence|reflexivity].
Qed.

(** * Further properties of temporary names, base names and the command line *)
From Verif Require Import Base SMap Desc_Model Parse_Model ClassParse_Model.
From Verif Require Tight3_Props Gen_Model.

(** ** C73: names made for nameless structures *)
(** The names are numbered one after another, so no two of a run are the same. *)
Theorem C73_tmp_fresh : forall g n m,
  tmpname (g_cnt (Nat.iter n inc_cnt g)) = tmpname (g_cnt g + N.of_nat n) /\
  (tmpname (g_cnt (Nat.iter n inc_cnt g)) = tmpname (g_cnt (Nat.iter m inc_cnt g)) -> n = m).
Proof.
  intros g n m.
  assert (K : forall k, g_cnt (Nat.iter k inc_cnt g) = (g_cnt g + N.of_nat k)%N).
  { clear. induction k as [|k IH]; [cbn; lia|]. change (g_cnt (Nat.iter k inc_cnt g) + 1 = g_cnt g + N.of_nat (S k))%N.
    rewrite IH. clear. lia. }
  rewrite !K. split; [reflexivity|]. intros E. apply Tight3_Props.C73_tmp_names in E. clear - E. lia.
Qed.
Print Assumptions C73_tmp_fresh.
Example C73_tmp_fresh_ex : forall g, g_cnt g = 0%N ->
  tmpname (g_cnt g) = bs "___ecotmp0         " /\ tmpname (g_cnt (inc_cnt g)) = bs "___ecotmp1         ".
Proof. intros g E. unfold inc_cnt. cbn [g_cnt]. rewrite E. split; reflexivity. Qed.

(** ** C34: the name of a base class *)
(** ".base_" and then the name of the type, each character that is neither a letter nor a
    digit replaced by an underscore. *)
Theorem C34_basename_chars : forall tn, exists m, basename tn = bs ".base_" ++ m /\ length m = length tn /\
  forall k c, nth_error tn k = Some c -> nth_error m k = Some (if isalnum c then c else "_"%char).
Proof.
  intros tn. exists (map (fun c => if isalnum c then c else "_"%char) tn). split; [reflexivity|].
  split; [apply map_length|]. intros k c E. now rewrite nth_error_map, E.
Qed.
Print Assumptions C34_basename_chars.
Example C34_basename_chars_ex : nth_error (bs "A<int>") 1 = Some "<"%char /\ basename (bs "A<int>") = bs ".base_A_int_".
Proof. split; reflexivity. Qed.

(** ** C82: a command line without arguments *)
(** It only tells the usage, and exits with 0. *)
Theorem C82_no_arguments : exists t, Gen_Model.options [] = Gen_Model.OExit 0 t.
Proof. eexists. reflexivity. Qed.
Print Assumptions C82_no_arguments.

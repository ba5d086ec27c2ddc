(** * Properties of function calls: C41 REST arguments, C42 functional::apply, callOnBuffer,
    PackFunctor *)
From Verif Require Import Base Base_Proofs SMap Json_Model Rest_Model Rest_Props Rest2_Model.
From Verif Require Import PackBuf_Model Codec_Model Codec_Spec Codec_Proofs Codec_Proofs2 Codec_Props.

(** ** C41 *)
Section C41.
Variables T V : Type.
Variable dfltv : T -> V.
Variable rd : T -> jv -> jr V.
Notation callOnBuffer := (callOnBuffer dfltv rd).
Notation callFunction := (callFunction dfltv rd).

(** read a list of arguments from a list of JSON values of at least that length *)
Fixpoint readall (ts : list T) (l : list jv) : jr (list V) :=
  match ts, l with
  | [], _ => JOk []
  | t :: ts', j :: l' => v <~ rd t j ;; vs <~ readall ts' l' ;; JOk (v :: vs)
  | _, [] => JErr EOther
  end.
Lemma callOnBuffer_map : forall ts X b (f : list V -> X),
  callOnBuffer ts b f = (vs <~ callOnBuffer ts b (fun vs => vs) ;; JOk (f vs)).
Proof.
  induction ts as [|t ts IH]; intros X b f; cbn [Rest2_Model.callOnBuffer jbind]; [reflexivity|].
  destruct (next T V dfltv rd t b) as [[v b']|e|]; cbn [jbind fst snd]; [|reflexivity..].
  rewrite (IH X b'), (IH (list V) b' (fun args => v :: args)).
  destruct (callOnBuffer ts b' (fun vs => vs)); reflexivity.
Qed.
Lemma call_enough : forall ts l X (f : list V -> X), length ts <= length l ->
  callOnBuffer ts l f = (vs <~ readall ts l ;; JOk (f vs)).
Proof.
  induction ts as [|t ts IH]; intros l X f H; cbn [Rest2_Model.callOnBuffer readall jbind]; [reflexivity|].
  destruct l as [|j l]; [cbn in H; lia|]. cbn [next]. destruct (rd t j) as [v|e|]; cbn [jbind fst snd]; [|reflexivity..].
  rewrite IH by (cbn in H; lia). destruct (readall ts l); reflexivity.
Qed.

(** with enough elements, parameter i receives element i; in declaration order, each
    converted by its own type *)
Theorem C41_positional : forall k ts rem l vs, length ts <= length l ->
  Forall2 (fun p v => rd (fst p) (snd p) = JOk v) (combine ts l) vs ->
  exists a, callFunction k ts rem (JArr l) = JOk (vs, a).
Proof.
  intros k ts rem l vs H F. unfold callFunction. cbn [jbuffer]. rewrite call_enough by exact H.
  replace (readall ts l) with (@JOk (list V) vs); [cbn [jbind]; eauto|].
  clear k rem. revert l vs H F. induction ts as [|t ts IH]; intros l vs H F.
  - cbn in F. inversion F. reflexivity.
  - destruct l as [|j l]; [cbn in H; lia|]. cbn [combine] in F. inversion F as [|p v ps vs' Hd Tl]; subst.
    cbn [fst snd] in Hd. cbn [readall]. rewrite Hd. cbn [jbind].
    rewrite <- (IH l vs') by (try exact Tl; cbn in H; lia). reflexivity.
Qed.
(** an argument that cannot be converted is reported and the function is not called *)
Theorem C41_bad_argument : forall k ts rem l i t j e, length ts <= length l ->
  nth_error ts i = Some t -> nth_error l i = Some j -> rd t j = JErr e ->
  (forall i' t' j', i' < i -> nth_error ts i' = Some t' -> nth_error l i' = Some j' -> exists v, rd t' j' = JOk v) ->
  callFunction k ts rem (JArr l) = JErr e.
Proof.
  intros k ts rem l i t j e H Ht Hj Hr Hb. unfold callFunction. cbn [jbuffer]. rewrite call_enough by exact H.
  replace (readall ts l) with (@JErr (list V) e); [reflexivity|]. clear k rem.
  revert l i H Ht Hj Hb. induction ts as [|t0 ts IH]; intros l i H Ht Hj Hb; [destruct i; discriminate|].
  destruct l as [|j0 l]; [cbn in H; lia|]. destruct i as [|i]; cbn [nth_error] in Ht, Hj; cbn [readall].
  - injection Ht as ->. injection Hj as ->. now rewrite Hr.
  - destruct (Hb 0 t0 j0 ltac:(lia) eq_refl eq_refl) as [v ->]. cbn [jbind].
    rewrite <- (IH l i); [reflexivity|cbn in H; lia|exact Ht|exact Hj|].
    intros i' t' j' L H1 H2. apply (Hb (S i') t' j'); [lia|exact H1|exact H2].
Qed.
(** a function returning a reference, called without a longer query: the first surplus
    argument, if any, is assigned to the result *)
Theorem C41_surplus : forall ts l vs, length ts <= length l -> readall ts l = JOk vs ->
  callFunction KRef ts [] (JArr l) =
  JOk (vs, match skipn (length ts) l with j :: _ => AfterConvert j | [] => AfterNothing end).
Proof.
  intros ts l vs H R. unfold callFunction. cbn [jbuffer]. rewrite call_enough, R by exact H. cbn [jbind].
  f_equal. f_equal. clear R. revert l H. induction (length ts) as [|n IH]; intros l H.
  - destruct l; reflexivity.
  - destruct l as [|x l]; [cbn in H; lia|]. cbn [nth_error skipn]. apply IH. cbn in H. lia.
Qed.
(** a single argument needs no array *)
Theorem C41_scalar_argument : forall k t j v, (forall l, j <> JArr l) -> j <> JNull -> rd t j = JOk v ->
  callFunction k [t] [] j = JOk ([v], AfterNothing).
Proof.
  intros k t j v NA NN R. unfold callFunction.
  replace (jbuffer j) with [j] by (destruct j; try reflexivity; [congruence|exfalso; eapply NA; reflexivity]).
  cbn [Rest2_Model.callOnBuffer next jbind]. rewrite R. cbn [jbind fst snd].
  destruct k; [|reflexivity..]. destruct j; try reflexivity; [exfalso; eapply NA; reflexivity].
Qed.
(** too few arguments: the missing ones are default values, without an error *)
Theorem C41_missing_default : forall k ts rem l, length l <= length ts ->
  forall vs, readall (firstn (length l) ts) l = JOk vs ->
  exists a, callFunction k ts rem (JArr l) = JOk (vs ++ map dfltv (skipn (length l) ts), a).
Proof.
  intros k ts rem l H vs R. unfold callFunction. cbn [jbuffer].
  assert (E0 : callOnBuffer ts l (fun vs => vs) = JOk (vs ++ map dfltv (skipn (length l) ts))).
  { clear k rem. revert l H vs R. induction ts as [|t ts IH]; intros l H vs R.
    - destruct l; [|cbn in H; lia]. cbn in R. injection R as <-. reflexivity.
    - destruct l as [|j l].
      + cbn in R. injection R as <-. cbn [length skipn app map]. clear H IH. revert t.
        assert (G : forall ts, callOnBuffer ts [] (fun vs : list V => vs) = JOk (map dfltv ts)).
        { induction ts0 as [|t0 ts0 IH0]; [reflexivity|]. cbn [Rest2_Model.callOnBuffer next jbind fst snd].
          rewrite callOnBuffer_map, IH0. reflexivity. }
        intros t. exact (G (t :: ts)).
      + cbn [length firstn readall] in R. cbn [Rest2_Model.callOnBuffer next jbind].
        destruct (rd t j) as [v|e|]; cbn [jbind] in R; try discriminate.
        destruct (readall (firstn (length l) ts) l) as [vs'|e|] eqn:R2; cbn [jbind] in R; try discriminate.
        assert (vs = v :: vs') by congruence. subst vs. cbn [jbind fst snd].
        rewrite callOnBuffer_map, (IH l) with (vs := vs') by (try exact R2; cbn in H; lia). reflexivity. }
  rewrite E0. cbn [jbind]. eauto.
Qed.
End C41.

(** one of several overloads is not called with too few arguments: C37_mismatch gives its
    score as the maximum, and C37_no_match / C37_best exclude it *)
Theorem C41_overload_too_few : forall objok (fs : list (list pty)) ps l,
  (1000000 * Z.of_nat (length ps) + 10 * Z.of_nat (length l) < 2 ^ 32)%Z ->
  length l < length ps -> overload _ (fun ps => matchScore objok ps (JArr l)) fs <> CPick ps.
Proof.
  intros objok fs ps l B L H. apply C37_best in H as [Lt _].
  assert (M := C37_mismatch objok ps l B (or_introl L)). lia.
Qed.

Definition rdz (t : unit) (j : jv) : jr Z := match j with JInt z => JOk z | _ => JErr EJson end.
Example C41_ex :
  callFunction (fun _ => 0%Z) rdz KRef [tt; tt] [] (JArr [JInt 5; JInt 6; JInt 7]) = JOk ([5; 6]%Z, AfterConvert (JInt 7)) /\
  callFunction (fun _ => 0%Z) rdz KVal [tt; tt] [] (JArr [JInt 5; JNull]) = JErr EJson /\
  callFunction (fun _ => 0%Z) rdz KVal [tt] [] (JInt 5) = JOk ([5%Z], AfterNothing) /\
  length [tt; tt] <= length [JInt 5; JInt 6; JInt 7] /\
  Forall2 (fun p v => rdz (fst p) (snd p) = JOk v) (combine [tt; tt] [JInt 5; JInt 6; JInt 7]) [5; 6]%Z.
Proof. do 3 (split; [vm_compute; reflexivity|]). split; [cbn; lia|]. repeat constructor. Qed.
(** the two arguments of a function that is not overloaded may be left out *)
Theorem C41_missing_refuted : exists ts l vs, length l < length ts /\
  callFunction (fun _ => 0%Z) rdz KVal ts [] (JArr l) = JOk (vs, AfterNothing).
Proof. exists [tt; tt], [JInt 5], [5; 0]%Z. split; [cbn; lia|vm_compute; reflexivity]. Qed.
(** a longer query hands the function's own arguments on to the member of the result *)
Theorem C41_remainder_refuted : exists ts rem l vs, length l = length ts /\
  callFunction (fun _ => 0%Z) rdz KRef ts rem (JArr l) = JOk (vs, AfterProcess rem (JArr l)).
Proof. exists [tt], (bs ".x"), [JInt 5], [5%Z]. split; [reflexivity|vm_compute; reflexivity]. Qed.

Print Assumptions C41_positional.
Print Assumptions C41_bad_argument.
Print Assumptions C41_surplus.
Print Assumptions C41_scalar_argument.
Print Assumptions C41_missing_default.
Print Assumptions C41_overload_too_few.
Print Assumptions C41_missing_refuted.
Print Assumptions C41_remainder_refuted.

(** ** C42 *)
(** functional::apply: the function is called once, with a[0] … a[n-1] in that order *)
Theorem C42_apply : forall (V R : Type) junk n (f : list V -> R) a,
  n <= length a -> applyf V R junk n f a = f (firstn n a).
Proof.
  intros V R junk. induction n as [|n IH]; intros f a H; cbn [applyf]; [reflexivity|].
  rewrite IH by lia. unfold curryLast. f_equal. replace (S n - 1) with n by lia.
  clear IH f. revert a H. induction n as [|n IH]; intros [|x a] H; cbn [length] in H; try lia; [reflexivity|].
  change (x :: (firstn n a ++ [nth n a junk]) = x :: firstn (S n) a). f_equal. apply IH. lia.
Qed.
Example C42_apply_ex : applyf nat (list nat) 0 3 (fun l => l) [7; 8; 9; 10] = [7; 8; 9] /\ 3 <= length [7; 8; 9; 10].
Proof. split; [vm_compute; reflexivity|cbn; lia]. Qed.
Print Assumptions C42_apply.

(** callOnBuffer on a pack_t: function.h 559-614 with [b>>a] the [up] of Codec_Model.v on
    a value-initialised argument *)
Section C42.
Variable klt : nat -> val -> val -> bool.
Fixpoint callOnPack {X : Type} (ts : list ty) (f : list val -> X) : M pack_buf X :=
  match ts with
  | [] => ret (f [])
  | t :: ts' => v <- up klt t (dflt t) ;; callOnPack ts' (fun args => f (v :: args))
  end.
Lemma callOnPack_recs : forall ts X (f : list val -> X) st,
  callOnPack ts f st =
  match up_recs klt (combine ts (map dflt ts)) st with
  | Ok vs st' => Ok (f vs) st'
  | Throw e st' => Throw e st'
  | UB => UB
  end.
Proof.
  induction ts as [|t ts IH]; intros X f st; cbn [callOnPack map combine up_recs]; [reflexivity|].
  unfold bind. destruct (up klt t (dflt t) st) as [v st1|e st1|]; [|reflexivity..].
  rewrite IH. destruct (up_recs klt (combine ts (map dflt ts)) st1); reflexivity.
Qed.
(** PackFunctor 617-645: packing the arguments and calling is calling with them *)
Theorem C42_packfunctor : forall (l : list (ty * val)) X (f : list val -> X),
  Forall (fun '(t, v) => has_ty klt t v = true) l -> (len (enc_recs l) < 2^63)%N ->
  exists st1 st2, pk_recs l pb_empty = Ok tt st1 /\
    callOnPack (map fst l) f st1 = Ok (f (map (fun '(t, v) => upd t (dflt t) v) l)) st2 /\
    pb_pos st2 = pb_size st2.
Proof.
  intros l X f H L.
  destruct (C05_concatenation klt l (map (fun p => dflt (fst p)) l)) as (st1 & st2 & P & U & Q).
  - exact H.
  - clear H L. induction l as [|[t v] l IH]; cbn [map]; constructor; [cbn [fst]; apply shape_dflt|exact IH].
  - exact L.
  - exists st1, st2. split; [exact P|]. split; [|exact Q]. rewrite callOnPack_recs.
    rewrite map_map. rewrite U. f_equal. f_equal.
    clear. induction l as [|[t v] l IH]; cbn [map combine]; [reflexivity|]. cbn [fst]. f_equal. exact IH.
Qed.
Theorem C42_packfunctor_plain : forall (l : list (ty * val)) X (f : list val -> X),
  Forall (fun '(t, v) => has_ty klt t v = true /\ plain t = true) l -> (len (enc_recs l) < 2^63)%N ->
  exists st1 st2, pk_recs l pb_empty = Ok tt st1 /\ callOnPack (map fst l) f st1 = Ok (f (map snd l)) st2.
Proof.
  intros l X f H L.
  destruct (C42_packfunctor l X f) as (st1 & st2 & P & U & _).
  - clear L. induction H as [|[t v] l [H1 _] H IH]; constructor; assumption.
  - exact L.
  - exists st1, st2. split; [exact P|]. rewrite U. f_equal. f_equal. clear - H.
    induction H as [|[t v] l [H1 H2] H IH]; cbn [map]; [reflexivity|]. f_equal; [|exact IH].
    cbn [snd]. now apply (C04_destination_equal klt); [exact H2|exact H1|apply shape_dflt].
Qed.
End C42.
Print Assumptions C42_packfunctor.
Print Assumptions C42_packfunctor_plain.
Example C42_packfunctor_ex :
  Forall (fun '(t, v) => has_ty ex_klt t v = true) [(ex_ty, ex_val "x"); (TEnum, VEnum 3)] /\
  match pk_recs [(ex_ty, ex_val "x"); (TEnum, VEnum 3)] pb_empty with
  | Ok _ st => match callOnPack ex_klt [ex_ty; TEnum] (fun l => nth 1 l (VEnum 0)) st with
               | Ok v _ => v = VEnum 3
               | _ => False
               end
  | _ => False
  end.
Proof. split; [repeat constructor; vm_compute; reflexivity|vm_compute; reflexivity]. Qed.

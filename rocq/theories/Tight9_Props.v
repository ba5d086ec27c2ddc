(** * Further properties of Java strings, qualified names and the offsets after scatter *)
From Verif Require SBuf_Model.
From Verif Require Import Base SMap Desc_Model Parse_Model ClassParse_Model.
From Verif Require Java_Model MPI_Model MPI_Props.

(** ** C56: the strings of a class file *)
(** Of every string, however long, only the length modulo 65536 is written, and that many
    characters; from 32768 on it throws. *)
Theorem C56_string_any : forall s n q, len s = (65536 * q + n)%N -> (n < 65536)%N ->
  Java_Model.put_str s =
    if (n <? 32768)%N then Some (Java_Model.put_u2 n ++ firstn (N.to_nat n) s) else None.
Proof.
  intros s n q L H. unfold Java_Model.put_str.
  assert (E : Java_Model.to_u2 (len s) = n).
  { unfold Java_Model.to_u2. change (2 ^ 16)%N with 65536%N. rewrite L. symmetry. apply N.mod_unique with q; [exact H|reflexivity]. }
  rewrite E. unfold Java_Model.short_of. change (2 ^ 15)%N with 32768%N. change (2 ^ 16)%Z with 65536%Z.
  destruct (N.ltb_spec n 32768).
  - destruct (Z.ltb_spec (Z.of_N n) 0); [lia|reflexivity].
  - destruct (Z.ltb_spec (Z.of_N n - 65536) 0); [reflexivity|lia].
Qed.
Print Assumptions C56_string_any.
Example C56_string_any_ex : len (bs "abc") = (65536 * 0 + 3)%N /\ (3 < 65536)%N /\
  Java_Model.put_str (bs "abc") = Some (Java_Model.put_u2 3 ++ bs "abc").
Proof. split; [reflexivity|]. split; [reflexivity|]. vm_compute. reflexivity. Qed.
(** So a string of 65536 characters or more is cut without a word. *)
Theorem C56_string_cut_refuted : exists s, len s = 65539%N /\
  Java_Model.put_str s = Some (Java_Model.put_u2 3 ++ firstn 3 s).
Proof.
  exists (repeat "a"%char (N.to_nat 65539)).
  assert (L : len (repeat "a"%char (N.to_nat 65539)) = 65539%N) by (unfold len; now rewrite repeat_length, N2Nat.id).
  split; [exact L|]. rewrite (C56_string_any _ 3 1); [reflexivity|rewrite L; reflexivity|reflexivity].
Qed.
Print Assumptions C56_string_cut_refuted.

(** ** C73: qualified names of classes *)
(** the tokens of [::n1::n2...] before [u] and [rest] *)
Fixpoint colons (ns : list tok) (u : tok) (rest : list tok) : list tok :=
  match ns with [] => u :: rest | n :: ns' => bs "::" :: n :: colons ns' u rest end.
(** A name followed by [::n1::n2...] is read as a whole. *)
Theorem C73_qualified : forall ns f name t2 t1 u rest, (length ns < f)%nat -> u <> bs "::" ->
  match colons ns u rest with
  | [] => False
  | t :: more => exists i, qualified f name (Inp t2 t1 t more) =
      POk (name ++ concat (map (fun n => bs "::" ++ n) ns)) i /\ tk i = u /\ Parse_Model.more i = rest
  end.
Proof.
  induction ns as [|n ns IH]; intros f name t2 t1 u rest L U; cbn [colons].
  - destruct f as [|f]; [cbn in L; lia|]. cbn [qualified tk map concat]. unfold teq.
    destruct (beq u (bs "::")) eqn:B; [apply beq_eq in B; contradiction|].
    exists (Inp t2 t1 u rest). rewrite app_nil_r. auto.
  - destruct f as [|f]; [cbn in L; lia|]. cbn [qualified tk]. unfold teq. rewrite beq_refl.
    cbn [next more pbind tk].
    specialize (IH f (name ++ bs "::" ++ n) (bs "::") n u rest). cbn [length] in L.
    destruct (colons ns u rest) as [|t m] eqn:C.
    { destruct ns; discriminate. }
    cbn [next more pbind tk1 tk].
    destruct IH as (i & E & Ti & Mi); [lia|exact U|]. exists i. split; [|auto].
    cbn [map concat]. rewrite <- !app_assoc in E |- *. rewrite !app_assoc in *. exact E.
Qed.
Print Assumptions C73_qualified.
Example C73_qualified_ex : (length [bs "B"; bs "C"] < 3)%nat /\ bs "{" <> bs "::" /\
  qualified 3 (bs "A") (Inp [] [] (bs "::") [bs "B"; bs "::"; bs "C"; bs "{"; bs "x"]) =
  POk (bs "A::B::C") (Inp (bs "::") (bs "C") (bs "{") [bs "x"]).
Proof. split; [cbn; lia|]. split; [discriminate|]. vm_compute. reflexivity. Qed.

(** ** C48: the offsets of the root after scatter *)
Theorem C48_offsets : forall root w w', (root < length w)%nat -> MPI_Model.scatter root w = Some w' ->
  forall k, nth_error (MPI_Model.offs (nth root w' MPI_Model.dflt)) k =
    match nth_error (MPI_Model.offs (nth root w MPI_Model.dflt)) k with
    | None => None
    | Some z => Some (if (k <? length w)%nat then Some 0%Z else z)
    end.
Proof.
  intros root w w' R E k. unfold MPI_Model.scatter in E.
  destruct (MPI_Model.sections (length w) (MPI_Model.offs (nth root w MPI_Model.dflt))) as [l|] eqn:SE; [|discriminate].
  destruct (MPI_Model.chunks_of _ l) as [cs|] eqn:CH; [|discriminate]. injection E as <-.
  assert (LC : length cs = length l).
  { clear - CH. revert cs CH. induction l as [|a l IH]; intros cs CH; cbn [MPI_Model.chunks_of] in CH; [now injection CH as <-|].
    destruct (MPI_Model.chunk_of _ a); [|discriminate]. destruct (MPI_Model.chunks_of _ l); [|discriminate].
    injection CH as <-. cbn. f_equal. now apply IH. }
  assert (LL : length l = length w).
  { clear - SE. revert SE. generalize (MPI_Model.offs (nth root w MPI_Model.dflt)) (length w). intros o n. revert o l.
    induction n as [|n IH]; intros o l SE; cbn [MPI_Model.sections] in SE; [now injection SE as <-|].
    repeat match type of SE with
    | match ?x with _ => _ end = _ => destruct x eqn:?; try discriminate
    end; injection SE as <-; cbn [length]; f_equal; eapply IH; eassumption. }
  rewrite MPI_Props.set_nth_nth by (rewrite MPI_Props.map2_len; congruence). rewrite Nat.eqb_refl.
  rewrite MPI_Props.map2_nth by congruence. unfold MPI_Model.zero_offs. cbn [MPI_Model.offs MPI_Model.receive MPI_Model.setmb].
  generalize (MPI_Model.offs (nth root w MPI_Model.dflt)) (length w). clear. intros o n. revert n k.
  induction o as [|z o IH]; intros n k.
  - rewrite Nat.min_0_r, skipn_nil. cbn [repeat app]. now destruct k.
  - destruct n as [|n]; cbn [Nat.min length repeat app skipn].
    + destruct k as [|k]; cbn [nth_error]; [reflexivity|]. now destruct (nth_error o k).
    + destruct k as [|k]; cbn [nth_error]; [reflexivity|]. rewrite IH. reflexivity.
Qed.
Print Assumptions C48_offsets.
Example C48_offsets_ex : exists w w', (0 < length w)%nat /\ MPI_Model.scatter 0 w = Some w' /\
  MPI_Model.offs (nth 0 w MPI_Model.dflt) = [Some 0%Z; Some 1%Z; Some 2%Z] /\
  MPI_Model.offs (nth 0 w' MPI_Model.dflt) = [Some 0%Z; Some 0%Z; Some 2%Z].
Proof.
  exists [MPI_Props.ex_root; MPI_Model.mpi_new 2]. eexists. split; [cbn; lia|]. split; [vm_compute; reflexivity|].
  split; vm_compute; reflexivity.
Qed.

(** ** C110: numbers and objects *)
(** The JSON that a buffer keeps as it is, is null or an object. *)
Theorem C110_kept : forall j k, SBuf_Model.sb_assign j = SBuf_Model.SJson k ->
  k = j /\ (j = Json_Model.JNull \/ exists kvs, j = Json_Model.JObj kvs).
Proof.
  intros j k E. destruct j; cbn in E; try discriminate E; injection E as <-; (split; [reflexivity|]); [now left|right; eauto].
Qed.
Print Assumptions C110_kept.
Example C110_kept_ex : SBuf_Model.sb_assign (Json_Model.JObj []) = SBuf_Model.SJson (Json_Model.JObj []).
Proof. reflexivity. Qed.
(** Reading a number from an object throws. *)
Theorem C110_object_throws : forall klt narrow t kvs a,
  (exists n sgn bits, t = Json_Model.TInt n sgn bits) \/ t = Json_Model.TFlt \/ t = Json_Model.TDbl ->
  SBuf_Model.get klt narrow t (SBuf_Model.sb_assign (Json_Model.JObj kvs)) a = Json_Model.JErr Json_Model.EOther.
Proof. intros klt narrow t kvs a [(n & sgn & bits & ->)|[-> | ->]]; reflexivity. Qed.
Print Assumptions C110_object_throws.
Example C110_object_throws_ex :
  SBuf_Model.get (fun _ _ _ => false) (fun d => d) Json_Model.TDbl (SBuf_Model.sb_assign (Json_Model.JObj [])) (Json_Model.VD 3) =
  Json_Model.JErr Json_Model.EOther.
Proof. reflexivity. Qed.

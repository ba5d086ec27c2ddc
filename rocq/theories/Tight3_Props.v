(** * Further facts closing gaps between the other properties: C47, C73, C89 *)
From Verif Require Import Base Base_Proofs SMap.
From Verif Require Json_Model PackBuf_Model PackBuf_Spec PackBuf_Proofs MPI_Model MPI_Props Dec Tok_Model Parse_Model ClassParse_Model PyBuf_Model Xml_Proofs2.

(** ** C47 *)
Section C47.
Import PackBuf_Model PackBuf_Spec PackBuf_Proofs MPI_Model MPI_Props.
Lemma offsets_of_total : forall bufs o l, Forall (fun b => (pb_size b < 2 ^ 31)%N) bufs -> (0 <= o < 2 ^ 31)%Z ->
  offsets_of o (map (fun b => to_int (pb_size b)) bufs) = Some l -> (o + Z.of_N (tot bufs) < 2 ^ 31)%Z.
Proof.
  induction bufs as [|b bufs IH]; intros o l F L H; cbn [map offsets_of tot fold_right] in *; [lia|]. fold (tot bufs).
  inversion F as [|? ? F1 F2]; subst. rewrite to_int_small in H by exact F1.
  destruct (fits _) eqn:Q in H; [|discriminate]. unfold fits in Q. apply andb_true_iff in Q. apply proj2 in Q. apply Z.ltb_lt in Q.
  destruct (offsets_of (o + Z.of_N (pb_size b)) _) as [l'|] eqn:E in H; [|discriminate].
  assert (L2 : (0 <= o + Z.of_N (pb_size b) < 2 ^ 31)%Z) by lia. specialize (IH _ l' F2 L2 E). lia.
Qed.
(** Buffers can be gathered only if they are less than 2^31 bytes together. *)
Theorem C47_total : forall junk root w w', gather junk root w = Some w' -> Forall (fun b => cbuf b = false) w ->
  Forall (fun b => (pb_size (mb b) < 2 ^ 31)%N) w -> (tot (map mb w) < 2 ^ 31)%N.
Proof.
  intros junk root w w' H C F. unfold gather in H.
  replace (forallb (fun b => negb (cbuf b)) w) with true in H
    by (symmetry; apply forallb_forall; intros b Hb; rewrite Forall_forall in C; now rewrite (C b Hb)).
  destruct (offsets_of 0 _) as [l|] eqn:E in H; [|discriminate].
  assert (F' : Forall (fun b => (pb_size b < 2 ^ 31)%N) (map mb w)).
  { apply Forall_forall. intros b Hb. apply in_map_iff in Hb. destruct Hb as (x & <- & Hx). rewrite Forall_forall in F. now apply F. }
  assert (T := offsets_of_total (map mb w) 0 l F' ltac:(lia) E). rewrite P31 in T. rewrite P31n. lia.
Qed.
Example C47_total_ex : exists w', gather [] 0 [mkmpi (mk_pb (bs "a") 1 0) [] 0 false; mkmpi (mk_pb (bs "bc") 2 0) [] 0 false] = Some w'.
Proof. eexists. vm_compute. reflexivity. Qed.
Print Assumptions C47_total.
(** New buffers, into which anything was packed, are gathered in the order of the processes. *)
Theorem C47_packed : forall junk root np xs w, Forall2 (fun x b => mpi_pack x (mpi_new np) = Some b) xs w -> root < length xs ->
  (len (concat xs) < 2 ^ 31)%N ->
  exists w', gather junk root w = Some w' /\ contents (nth root w' dflt) = concat xs.
Proof.
  intros junk root np xs w F R L.
  assert (P : forall x b, (len x < 2 ^ 31)%N -> mpi_pack x (mpi_new np) = Some b -> cbuf b = false /\ good b /\ contents b = x /\ pb_size (mb b) = len x).
  { intros x b Lx E. unfold mpi_pack in E. change (mb (mpi_new np)) with pb_empty in E.
    destruct (packraw_ok pb_empty x inv_empty) as (p & E1 & Ip & E2 & _); [change (pb_size pb_empty) with 0%N; rewrite P31n in Lx; rewrite W_eq; lia|].
    rewrite E1 in E. injection E as <-. cbn [cbuf mpi_new]. unfold good, contents. cbn [mb].
    assert (G : (pb_size p <= len (pb_mem p))%N) by (unfold inv in Ip; tauto).
    split; [reflexivity|]. split; [exact G|]. split; [exact E2|]. rewrite <- (pb_data_len p G), E2. reflexivity. }
  assert (Q : Forall (fun b => cbuf b = false) w /\ Forall good w /\ map contents w = xs /\ tot (map mb w) = len (concat xs)).
  { clear R. induction F as [|x b xs w E _ IH]; [repeat constructor|]. cbn [concat] in L. rewrite len_app in L.
    destruct (P x b ltac:(lia) E) as (P1 & P2 & P3 & P4). destruct (IH ltac:(lia)) as (Q1 & Q2 & Q3 & Q4).
    split; [now constructor|]. split; [now constructor|]. split; [cbn; congruence|]. cbn [map tot fold_right concat]. fold (tot (map mb w)).
    now rewrite len_app, P4, Q4. }
  destruct Q as (Q1 & Q2 & Q3 & Q4).
  destruct (C47_gather junk root w) as (w' & G1 & _ & G2 & _); try assumption.
  { now rewrite <- Q3, map_length in R. } { now rewrite Q4. }
  exists w'. split; [exact G1|]. now rewrite G2, Q3.
Qed.
Example C47_packed_ex : exists a b, mpi_pack (bs "ab") (mpi_new 2) = Some a /\ mpi_pack (bs "c") (mpi_new 2) = Some b.
Proof. eexists. eexists. split; vm_compute; reflexivity. Qed.
Print Assumptions C47_packed.
End C47.

(** ** C73: the names given to structures without one *)
Section C73.
Import Dec ClassParse_Model.
Lemma pad_split : forall (a b : list ascii) n m, ~ In " "%char a -> ~ In " "%char b ->
  a ++ repeat " "%char n = b ++ repeat " "%char m -> a = b.
Proof.
  induction a as [|c a IH]; intros [|d b] n m NA NB E; cbn [app] in E.
  - reflexivity.
  - exfalso. apply NB. left. destruct n; [discriminate|]. cbn in E. congruence.
  - exfalso. apply NA. left. destruct m; [discriminate|]. cbn in E. congruence.
  - injection E as -> E. f_equal. apply (IH _ n m); [intros H; apply NA; now right|intros H; apply NB; now right|exact E].
Qed.
Theorem C73_tmp_names : forall m n, tmpname m = tmpname n -> m = n.
Proof.
  intros m n E. unfold tmpname in E. apply app_inv_head in E. apply pad_split in E; [now apply dec_inj|..];
    intros H; apply (Xml_Proofs2.dec_notin _ " "%char) in H; try exact H; left; reflexivity.
Qed.
Example C73_tmp_names_ex : tmpname 10 = bs "___ecotmp10        ".
Proof. reflexivity. Qed.
Print Assumptions C73_tmp_names.
End C73.

(** ** C89: reading a bool *)
Section C89.
Import Json_Model PyBuf_Model.
(** Every integer but 0 is true, also one beyond 64 bits; so is what is no number. *)
Theorem C89_bool_value : forall klt narrow i2d x h c, look h x = Some c ->
  shr klt narrow i2d TBool x h = HOk (Some (VB (match ob c with PInt 0%Z | PBool false => false | _ => true end))) h.
Proof.
  intros klt narrow i2d x h c L. cbn [shr]. rewrite L. do 3 f_equal. unfold as_ll.
  destruct (ob c) as [| [|] | z | | | |]; try reflexivity.
  destruct z as [|p|p]; [reflexivity|destruct (_ && _)%bool; reflexivity..].
Qed.
Example C89_bool_value_ex : look [(3, Cell 1 (PInt (-2)))] 3 = Some (Cell 1 (PInt (-2))).
Proof. reflexivity. Qed.
Print Assumptions C89_bool_value.
End C89.

(** * Properties of the MPI buffers: C47, C48, C49, C61, C62, C63 *)
From Verif Require Import Base Base_Proofs PackBuf_Model PackBuf_Proofs MPI_Model.
Ltac Zify.zify_post_hook ::= Z.div_mod_to_equations.

Lemma P31 : (2 ^ 31 = 2147483648)%Z. Proof. reflexivity. Qed.
Lemma P31n : (2 ^ 31 = 2147483648)%N. Proof. reflexivity. Qed.
Lemma P32 : (2 ^ 32 = 4294967296)%Z. Proof. reflexivity. Qed.
Lemma W_val : (W = 18446744073709551616)%N. Proof. reflexivity. Qed.
Lemma to_int_small : forall n, (n < 2^31)%N -> to_int n = Z.of_N n.
Proof. intros n H. rewrite P31n in H. unfold to_int. rewrite P31, P32. rewrite Z.mod_small by lia. replace (Z.of_N n <? 2147483648)%Z with true by lia. reflexivity. Qed.
Lemma fits_small : forall z, (0 <= z < 2^31)%Z -> fits z = true.
Proof. intros z H. unfold fits. rewrite P31 in *. lia. Qed.

(** the data a process has packed *)
Definition contents (b : mpibuf) : list ascii := pb_data (mb b).
Definition good (b : mpibuf) : Prop := (pb_size (mb b) <= len (pb_mem (mb b)))%N.

(** ** C47: gather *)
Fixpoint pre (o : Z) (sizes : list Z) : list Z :=
  match sizes with [] => [] | s :: l => o :: pre (o + s) l end.
Definition tot (bufs : list pack_buf) : N := fold_right (fun b n => (pb_size b + n)%N) 0%N bufs.

Lemma offsets_of_pre : forall bufs o, (0 <= o)%Z -> (o + Z.of_N (tot bufs) < 2^31)%Z ->
  offsets_of o (map (fun b => to_int (pb_size b)) bufs) =
  Some (pre o (map (fun b => to_int (pb_size b)) bufs) ++ [(o + Z.of_N (tot bufs))%Z]).
Proof.
  induction bufs as [|b bufs IH]; intros o H0 H; cbn [tot fold_right] in H |- *; cbn [map offsets_of pre app].
  - now rewrite Z.add_0_r.
  - fold (tot bufs) in *. rewrite to_int_small by (rewrite P31 in H; rewrite P31n; lia). rewrite fits_small by lia.
    rewrite IH by lia. f_equal. f_equal. f_equal. f_equal. lia.
Qed.
Lemma gatherv_ok : forall bufs o mem tail, Forall (fun b => pb_size b <= len (pb_mem b))%N bufs ->
  (o + tot bufs <= len mem)%N -> (o + tot bufs < 2^31)%N ->
  exists mem', gatherv mem (pre (Z.of_N o) (map (fun b => to_int (pb_size b)) bufs) ++ tail)
                       (map (fun b => to_int (pb_size b)) bufs) bufs = Some mem' /\
    len mem' = len mem /\
    firstn (N.to_nat (o + tot bufs)) mem' = firstn (N.to_nat o) mem ++ concat (map pb_data bufs).
Proof.
  induction bufs as [|b bufs IH]; intros o mem tail G L H; cbn [tot fold_right map] in *.
  - exists mem. cbn [gatherv concat pre app]. rewrite N.add_0_r, app_nil_r. destruct tail; auto.
  - fold (tot bufs) in *. inversion G as [|? ? G1 G2]; subst.
    cbn [pre app gatherv]. rewrite to_int_small by lia.
    rewrite P31n in H.
    replace (_ && _)%bool with true by (symmetry; rewrite !andb_true_iff; repeat split; lia).
    set (x := firstn (Z.to_nat (Z.of_N (pb_size b))) (pb_mem b)).
    assert (Hx : x = pb_data b) by (unfold x, pb_data; f_equal; lia).
    assert (Lx : len x = pb_size b) by (rewrite Hx; now apply pb_data_len).
    replace (Z.to_N (Z.of_N o)) with o by lia.
    assert (Wl : len (write_at mem o x) = len mem) by (apply write_at_len; rewrite Lx; lia).
    replace (Z.of_N o + Z.of_N (pb_size b))%Z with (Z.of_N (o + pb_size b)) by lia.
    destruct (IH (o + pb_size b)%N (write_at mem o x) tail G2) as (mem' & E & L' & F); [rewrite Wl; lia|rewrite P31n; lia|].
    rewrite E. exists mem'. split; [reflexivity|]. split; [now rewrite L', Wl|].
    replace (o + (pb_size b + tot bufs))%N with (o + pb_size b + tot bufs)%N by lia.
    rewrite F. rewrite <- Lx. rewrite write_at_firstn by (rewrite Lx; lia). rewrite Hx. cbn [concat]. now rewrite <- app_assoc.
Qed.
Lemma after_gather_nth : forall w k root blk n i,
  nth i (after_gather k root blk n w) dflt =
  if (i <? length w)%nat
  then if k + i =? root then setmb (nth i w dflt) (mk_pb blk n 0)
       else setmb (nth i w dflt) (mk_pb (pb_mem (mb (nth i w dflt))) 0 (pb_pos (mb (nth i w dflt))))
  else dflt.
Proof.
  induction w as [|b w IH]; intros k root blk n i; cbn [after_gather length]; [destruct i; reflexivity|].
  destruct i as [|i]; cbn [nth].
  - rewrite Nat.add_0_r. destruct (k =? root); reflexivity.
  - rewrite IH. replace (S k + i) with (k + S i) by lia. reflexivity.
Qed.
Lemma after_gather_len : forall w k root blk n, length (after_gather k root blk n w) = length w.
Proof. induction w; intros; cbn [after_gather length]; congruence. Qed.

(** every process's bytes end up at root, in rank order *)
Theorem C47_gather : forall junk root w, root < length w ->
  Forall (fun b => cbuf b = false) w -> Forall good w -> (tot (map mb w) < 2^31)%N ->
  exists w', gather junk root w = Some w' /\ length w' = length w /\
    contents (nth root w' dflt) = concat (map contents w) /\
    pb_size (mb (nth root w' dflt)) = tot (map mb w) /\
    pb_pos (mb (nth root w' dflt)) = 0%N /\
    forall i, i < length w -> i <> root -> contents (nth i w' dflt) = [].
Proof.
  intros junk root w R C G T. unfold gather.
  replace (forallb (fun b => negb (cbuf b)) w) with true
    by (symmetry; apply forallb_forall; intros b Hb; rewrite Forall_forall in C; now rewrite (C b Hb)).
  rewrite P31n in T.
  rewrite offsets_of_pre by (rewrite ?P31; lia). rewrite last_last. rewrite Z.add_0_l.
  replace (Z.of_N (tot (map mb w)) <? 0)%Z with false by lia.
  replace (Z.to_N (Z.of_N (tot (map mb w)))) with (tot (map mb w)) by lia.
  set (blk := realloc_blk junk [] (tot (map mb w))). assert (Lb : len blk = tot (map mb w)) by apply realloc_len.
  destruct (gatherv_ok (map mb w) 0 blk [Z.of_N (tot (map mb w))]) as (mem' & E & L' & F).
  { apply Forall_map. exact G. } { rewrite Lb. lia. } { rewrite P31n. lia. }
  change (Z.of_N 0) with 0%Z in E. rewrite E. eexists. split; [reflexivity|]. split; [apply after_gather_len|].
  rewrite after_gather_nth. replace (root <? length w)%nat with true by (symmetry; now apply Nat.ltb_lt).
  cbn [Nat.add]. rewrite Nat.eqb_refl. unfold contents at 1, setmb. cbn [mb pb_size pb_pos]. split.
  - unfold pb_data at 1. cbn [pb_size pb_mem]. rewrite N.add_0_l in F. rewrite F. cbn [N.to_nat firstn app]. now rewrite map_map.
  - split; [reflexivity|]. split; [reflexivity|]. intros i Hi Hr. rewrite after_gather_nth.
    replace (i <? length w)%nat with true by (symmetry; now apply Nat.ltb_lt). cbn [Nat.add].
    destruct (Nat.eqb_spec i root); [contradiction|]. reflexivity.
Qed.
Example C47_ex :
  let b x := mkmpi (mk_pb (bs x) (len (bs x)) 0) [] 0 false in
  match gather [] 1 [b "ab"%string; b ""%string; b "cde"%string] with
  | Some w => contents (nth 1 w dflt) = bs "abcde" /\ contents (nth 0 w dflt) = []
  | None => False
  end.
Proof. vm_compute. auto. Qed.

Lemma pre_const : forall (A : Type) (w : list A) k sz,
  map (fun i => Z.of_nat i * sz)%Z (seq k (length w)) = pre (Z.of_nat k * sz) (map (fun _ => sz) w).
Proof.
  induction w as [|b w IH]; intros k sz; cbn [length seq map pre]; [reflexivity|]. f_equal. rewrite IH. f_equal. lia.
Qed.
(** with const_buffer, whatever the (equal) sizes, root is left with rank 0's data only *)
Theorem C47_const : forall junk root w n, root < length w ->
  Forall (fun b => cbuf b = true /\ pb_size (mb b) = n) w -> Forall good w -> (n * len w < 2^31)%N ->
  exists w', gather junk root w = Some w' /\
    contents (nth root w' dflt) = contents (nth 0 w dflt) /\
    pb_size (mb (nth root w' dflt)) = n /\
    firstn (N.to_nat (n * len w)) (pb_mem (mb (nth root w' dflt))) = concat (map contents w).
Proof.
  intros junk root w n R C G T. unfold gather. rewrite P31n in T. rewrite Forall_forall in C.
  assert (Lw : (0 < len w)%N) by (unfold len; lia).
  assert (Nn : (n <= n * len w)%N) by (rewrite <- (N.mul_1_r n) at 1; apply N.mul_le_mono_l; lia).
  replace (forallb (fun b => negb (cbuf b)) w) with false.
  2:{ destruct w as [|b w]; [cbn in R; lia|]. cbn. rewrite (proj1 (C b (or_introl eq_refl))). reflexivity. }
  replace (forallb cbuf w) with true by (symmetry; apply forallb_forall; intros b Hb; apply C; exact Hb).
  assert (Hr : pb_size (mb (nth root w dflt)) = n) by (apply C, nth_In; exact R).
  rewrite Hr. rewrite to_int_small by (rewrite P31n; lia).
  rewrite N.mod_small by (rewrite W_val; lia).
  set (blk := realloc_blk junk [] (n * len w)). assert (Lb : len blk = (n * len w)%N) by apply realloc_len.
  assert (Et : tot (map mb w) = (n * len w)%N).
  { clear -C. induction w as [|b w IH]; [cbn; unfold len; cbn; lia|]. cbn [map tot fold_right]. fold (tot (map mb w)).
    rewrite IH by (intros b' Hb'; apply C; now right). rewrite (proj2 (C b (or_introl eq_refl))). unfold len. cbn [length]. lia. }
  assert (Es : map (fun _ : mpibuf => Z.of_N n) w = map (fun b => to_int (pb_size b)) (map mb w)).
  { rewrite map_map. apply map_ext_in. intros b Hb. rewrite (proj2 (C b Hb)). now rewrite to_int_small by (rewrite P31n; lia). }
  destruct (gatherv_ok (map mb w) 0 blk []) as (mem' & E & L' & F).
  { apply Forall_map. exact G. } { rewrite Lb, Et. lia. } { rewrite P31n, Et. lia. }
  rewrite pre_const, Es. rewrite app_nil_r in E. change (Z.of_nat 0 * Z.of_N n)%Z with 0%Z. change (Z.of_N 0) with 0%Z in E. rewrite E.
  replace (Z.of_N n <? 0)%Z with false by lia. rewrite N2Z.id.
  eexists. split; [reflexivity|]. rewrite after_gather_nth.
  replace (root <? length w)%nat with true by (symmetry; now apply Nat.ltb_lt).
  cbn [Nat.add]. rewrite Nat.eqb_refl. unfold contents at 1, setmb. cbn [mb pb_size pb_pos pb_mem].
  rewrite N.add_0_l, Et in F. cbn [N.to_nat firstn app] in F. rewrite map_map in F.
  assert (F' : firstn (N.to_nat (n * len w)) mem' = concat (map contents w)) by exact F.
  split; [|auto]. unfold pb_data. cbn [pb_size pb_mem].
  replace (N.to_nat n) with (Nat.min (N.to_nat n) (N.to_nat (n * len w))) by lia. rewrite <- firstn_firstn, F'.
  destruct w as [|b w]; [cbn in R; lia|]. cbn [map concat nth]. apply firstn_app_l.
  assert (H := pb_data_len (mb b) (Forall_inv G)). rewrite (proj2 (C b (or_introl eq_refl))) in H. unfold len in H. unfold contents. lia.
Qed.
Theorem C47_const_refuted : exists w w', gather [] 0 w = Some w' /\ Forall (fun b => cbuf b = true) w /\
  contents (nth 0 w' dflt) <> concat (map contents w).
Proof.
  exists [mkmpi (mk_pb (bs "a") 1 0) [] 0 true; mkmpi (mk_pb (bs "b") 1 0) [] 0 true]. eexists.
  split; [vm_compute; reflexivity|]. split; [repeat constructor|]. vm_compute. discriminate.
Qed.
Print Assumptions C47_gather.
Print Assumptions C47_const.
Print Assumptions C47_const_refuted.

(** ** C63: bcast *)
Lemma combine_map_nth : forall (w : world) k (f : nat * mpibuf -> mpibuf) i, i < length w ->
  nth i (map f (combine (seq k (length w)) w)) dflt = f (k + i, nth i w dflt).
Proof.
  induction w as [|b w IH]; intros k f i H; cbn [length] in H; [lia|]. cbn [length seq combine map].
  destruct i as [|i]; cbn [nth]; [now rewrite Nat.add_0_r|]. rewrite IH by lia. f_equal. f_equal. lia.
Qed.
Theorem C63_bcast : forall root w, root < length w -> Forall good w ->
  (pb_size (mb (nth root w dflt)) < 2^31)%N ->
  Forall (fun b => cbuf b = false) w \/
  Forall (fun b => cbuf b = true /\ pb_size (mb b) = pb_size (mb (nth root w dflt))) w ->
  exists w', bcast root w = Some w' /\ length w' = length w /\
    forall i, i < length w -> contents (nth i w' dflt) = contents (nth root w dflt) /\
                              pb_pos (mb (nth i w' dflt)) = 0%N.
Proof.
  intros root w R G T C. unfold bcast.
  set (n := pb_size (mb (nth root w dflt))) in *.
  assert (S : bcast_size root w = Some n).
  { unfold bcast_size. fold n. rewrite to_int_small by exact T. destruct C as [C|C]; rewrite Forall_forall in C.
    - replace (forallb (fun b => negb (cbuf b)) w) with true
        by (symmetry; apply forallb_forall; intros b Hb; now rewrite (C b Hb)).
      replace (Z.of_N n <? 0)%Z with false by lia. now rewrite N2Z.id.
    - replace (forallb (fun b => negb (cbuf b)) w) with false.
      2:{ destruct w as [|b w]; [cbn in R; lia|]. cbn. rewrite (proj1 (C b (or_introl eq_refl))). reflexivity. }
      replace (forallb cbuf w) with true by (symmetry; apply forallb_forall; intros b Hb; apply C; exact Hb).
      replace (forallb _ w) with true
        by (symmetry; apply forallb_forall; intros b Hb; apply N.eqb_eq; apply C; exact Hb).
      replace (0 <=? Z.of_N n)%Z with true by lia. reflexivity. }
  rewrite S. assert (Gr : good (nth root w dflt)) by (rewrite Forall_forall in G; apply G, nth_In, R).
  unfold good in Gr. fold n in Gr. replace (n <=? len (pb_mem (mb (nth root w dflt))))%N with true by lia.
  eexists. split; [reflexivity|]. split; [rewrite map_length, combine_length, seq_length; lia|].
  intros i Hi. rewrite combine_map_nth by exact Hi. cbn [Nat.add].
  destruct (i =? root); unfold contents, setmb, pb_data; cbn [mb pb_size pb_mem pb_pos]; fold n; split; try reflexivity.
  now rewrite firstn_firstn, Nat.min_id.
Qed.
Example C63_ex :
  let b x := mkmpi (mk_pb (bs x) (len (bs x)) 2) [] 0 false in
  match bcast 1 [b "abcd"%string; b "xyz"%string; b ""%string] with
  | Some w => map contents w = [bs "xyz"; bs "xyz"; bs "xyz"]
  | None => False
  end.
Proof. vm_compute. reflexivity. Qed.
Print Assumptions C63_bcast.

(** ** C48: scatter and marks *)
(** what root does to prepare a scatter: a section, a mark, a section, a mark, … *)
Fixpoint pack_sections (ss : list (list ascii)) (b : mpibuf) : option mpibuf :=
  match ss with
  | [] => Some b
  | s :: ss' => match mpi_pack s b with
                | Some b1 => match mpi_mark b1 with Some b2 => pack_sections ss' b2 | None => None end
                | None => None
                end
  end.
Fixpoint ends (o : N) (ss : list (list ascii)) : list Z :=
  match ss with [] => [] | s :: ss' => Z.of_N (o + len s) :: ends (o + len s) ss' end.
Fixpoint secs (o : N) (ss : list (list ascii)) : list (Z * Z) :=
  match ss with [] => [] | s :: ss' => (Z.of_N o, Z.of_N (len s)) :: secs (o + len s) ss' end.

Lemma set_nth_app : forall A (l : list A) x l' a, set_nth (l ++ x :: l') (length l) a = l ++ a :: l'.
Proof. induction l as [|y l IH]; intros x l' a; cbn [app length set_nth]; [reflexivity|]. now rewrite IH. Qed.
Lemma len_concat_cons : forall s (ss : list (list ascii)), len (concat (s :: ss)) = (len s + len (concat ss))%N.
Proof. intros. cbn [concat]. apply len_app. Qed.
Lemma pack_sections_ok : forall ss b p m, inv (mb b) -> offs b = p ++ repeat None (length ss + m) -> octr b = length p ->
  (pb_size (mb b) + len (concat ss) < 2^31)%N ->
  exists b', pack_sections ss b = Some b' /\ inv (mb b') /\ contents b' = contents b ++ concat ss /\
    offs b' = p ++ map Some (ends (pb_size (mb b)) ss) ++ repeat None m /\
    octr b' = length p + length ss /\ pb_pos (mb b') = pb_pos (mb b) /\ cbuf b' = cbuf b.
Proof.
  induction ss as [|s ss IH]; intros b p m I O1 O2 H; cbn [pack_sections].
  - exists b. cbn [concat ends map length app]. rewrite app_nil_r. split; [reflexivity|]. split; [exact I|].
    split; [reflexivity|]. split; [exact O1|]. split; [lia|auto].
  - rewrite len_concat_cons in H. rewrite P31n in H.
    destruct (packraw_ok (mb b) s I) as (p1 & E & I1 & D1 & Q1); [rewrite W_val; lia|].
    assert (Sz : pb_size p1 = (pb_size (mb b) + len s)%N).
    { unfold packraw in E. destruct (_ <=? _)%N; [|discriminate]. injection E as <-. cbn [pb_size].
      apply N.mod_small. rewrite W_val. lia. }
    unfold mpi_pack. rewrite E. unfold mpi_mark. cbn [octr offs mb cbuf].
    rewrite O1, O2. cbn [length]. replace (length p <? length (p ++ repeat None (S (length ss) + m)))%nat with true
      by (symmetry; apply Nat.ltb_lt; rewrite app_length; cbn [repeat Nat.add length]; lia).
    cbn [Nat.add repeat]. rewrite set_nth_app.
    rewrite to_int_small by (rewrite P31n; lia).
    destruct (IH (mkmpi p1 (p ++ Some (Z.of_N (pb_size p1)) :: repeat None (length ss + m)) (S (length p)) (cbuf b))
                 (p ++ [Some (Z.of_N (pb_size p1))]) m) as (b' & E' & I' & D' & O1' & O2' & Q' & C').
    { exact I1. } { cbn [offs]. now rewrite <- app_assoc. } { cbn [octr]. rewrite app_length. cbn. lia. }
    { cbn [mb]. rewrite P31n. lia. }
    exists b'. split; [exact E'|]. split; [exact I'|]. cbn [contents mb] in D'. split.
    { rewrite D'. unfold contents. cbn [mb]. rewrite D1. cbn [concat]. now rewrite <- app_assoc. }
    split. { rewrite O1'. cbn [mb ends map]. rewrite Sz. now rewrite <- app_assoc. }
    split. { rewrite O2'. rewrite app_length. cbn [length]. lia. }
    split; [now rewrite Q'|exact C'].
Qed.
Lemma sections_ok : forall ss o rest, (o + len (concat ss) < 2^31)%N ->
  sections (length ss) (Some (Z.of_N o) :: map Some (ends o ss) ++ rest) = Some (secs o ss).
Proof.
  induction ss as [|s ss IH]; intros o rest H; cbn [length ends map sections secs]; [reflexivity|].
  rewrite len_concat_cons, P31n in H. cbn [app]. rewrite fits_small by (rewrite P31; lia).
  rewrite IH by (rewrite P31n; lia). replace (Z.of_N (o + len s) - Z.of_N o)%Z with (Z.of_N (len s)) by lia. reflexivity.
Qed.
Lemma chunks_ok : forall ss o mem p, len p = o -> (o + len (concat ss) <= len mem)%N ->
  firstn (N.to_nat (o + len (concat ss))) mem = p ++ concat ss -> chunks_of mem (secs o ss) = Some ss.
Proof.
  induction ss as [|s ss IH]; intros o mem p Lp Lm F; cbn [secs chunks_of]; [reflexivity|].
  rewrite len_concat_cons in Lm, F. unfold chunk_of.
  replace (_ && _)%bool with true by (symmetry; rewrite !andb_true_iff; repeat split; lia).
  rewrite !N2Z.id. rewrite (IH (o + len s)%N mem (p ++ s)).
  - f_equal. f_equal. unfold read_at.
    assert (Q : firstn (N.to_nat (len s)) (skipn (N.to_nat o) (firstn (N.to_nat (o + (len s + len (concat ss)))) mem)) = s).
    { rewrite F. cbn [concat]. rewrite skipn_app_l by (unfold len in Lp; lia). apply firstn_app_l. unfold len. lia. }
    rewrite skipn_firstn_comm in Q. rewrite firstn_firstn in Q. rewrite Nat.min_l in Q by lia. exact Q.
  - rewrite len_app. lia.
  - lia.
  - rewrite <- app_assoc. replace (o + len s + len (concat ss))%N with (o + (len s + len (concat ss)))%N by lia. exact F.
Qed.
Lemma map2_nth : forall (w : world) cs i, length cs = length w -> i < length w ->
  nth i (map2 receive w cs) dflt = receive (nth i w dflt) (nth i cs []).
Proof.
  induction w as [|b w IH]; intros [|c cs] i L H; cbn [length] in *; try lia. cbn [map2].
  destruct i as [|i]; cbn [nth]; [reflexivity|]. apply IH; lia.
Qed.
Lemma map2_len : forall (w : world) cs, length cs = length w -> length (map2 receive w cs) = length w.
Proof. induction w as [|b w IH]; intros [|c cs] L; cbn [length map2] in *; try lia. rewrite IH; lia. Qed.
Lemma set_nth_nth : forall A (l : list A) i a j d, i < length l ->
  nth j (set_nth l i a) d = if j =? i then a else nth j l d.
Proof.
  induction l as [|x l IH]; intros [|i] a [|j] d H; cbn [length set_nth nth Nat.eqb] in *; try lia; try reflexivity.
  apply IH. lia.
Qed.
Lemma set_nth_len : forall A (l : list A) i a, length (set_nth l i a) = length l.
Proof. induction l as [|x l IH]; intros [|i] a; cbn [set_nth length]; auto. Qed.

(** the first scatter after construction gives process i section i *)
Theorem C48_scatter : forall w root ss r, root < length w -> length ss = length w ->
  (len (concat ss) < 2^31)%N -> pack_sections ss (mpi_new (length w)) = Some r -> nth root w dflt = r ->
  exists w', scatter root w = Some w' /\ length w' = length w /\
    forall i, i < length w ->
      contents (nth i w' dflt) = nth i ss [] /\ pb_size (mb (nth i w' dflt)) = len (nth i ss []) /\
      pb_pos (mb (nth i w' dflt)) = pb_pos (mb (nth i w dflt)) /\
      (pb_pos (mb (nth i w dflt)) = 0%N ->
       exists p, unpackraw (len (nth i ss [])) (mb (nth i w' dflt)) = Ok (nth i ss []) p).
Proof.
  intros w root ss r R L T E Hr.
  destruct (pack_sections_ok ss (mpi_new (length w)) [Some 0%Z] 0) as (b' & E' & I' & D' & O1 & O2 & _ & _).
  { apply inv_empty. } { unfold mpi_new. cbn [offs]. rewrite L, Nat.add_0_r. reflexivity. } { reflexivity. }
  { change (pb_size (mb (mpi_new (length w)))) with 0%N. rewrite N.add_0_l. exact T. }
  assert (b' = r) by congruence. subst b'. change (pb_size (mb (mpi_new (length w)))) with 0%N in O1.
  change (contents (mpi_new (length w))) with (@nil ascii) in D'. rewrite app_nil_l in D'.
  unfold scatter. rewrite Hr, O1. cbn [app]. rewrite <- L.
  replace (Some 0%Z) with (Some (Z.of_N 0)) by reflexivity. rewrite sections_ok by (rewrite N.add_0_l; exact T).
  destruct I' as (I1 & I2 & I3).
  assert (Dl : len (concat ss) = pb_size (mb r)) by (rewrite <- D'; unfold contents; now apply pb_data_len).
  rewrite (chunks_ok ss 0 (pb_mem (mb r)) []).
  2:{ reflexivity. } 2:{ lia. } 2:{ rewrite N.add_0_l, Dl. exact D'. }
  eexists. split; [reflexivity|]. split; [rewrite set_nth_len, map2_len; auto|].
  intros i Hi. rewrite set_nth_nth by (rewrite map2_len; auto).
  set (v := if i =? root then _ else _).
  assert (Hv : mb v = mb (receive (nth i w dflt) (nth i ss []))).
  { unfold v. destruct (Nat.eqb_spec i root) as [->|_]; [|rewrite map2_nth by lia; reflexivity].
    unfold zero_offs. cbn [mb]. rewrite map2_nth by lia. reflexivity. }
  unfold contents. rewrite Hv. unfold receive, setmb. cbn [mb pb_size pb_pos]. unfold pb_data. cbn [pb_size pb_mem].
  split; [rewrite firstn_all2; [reflexivity|unfold len; lia]|]. split; [reflexivity|]. split; [reflexivity|].
  intros P0. rewrite P0. unfold unpackraw. cbn [pb_size pb_mem pb_pos].
  assert (Ls : (len (nth i ss []) < W)%N).
  { assert (Q : (len (nth i ss []) <= len (concat ss))%N).
    { clear -L Hi. assert (Hi' : i < length ss) by lia. clear L Hi. revert i Hi'. induction ss as [|s ss IH]; intros [|i] H; cbn [length nth] in *; try lia.
      - rewrite len_concat_cons. lia. - rewrite len_concat_cons. specialize (IH i ltac:(lia)). lia. }
    rewrite W_val. rewrite P31n in T. lia. }
  rewrite N.add_0_r, N.mod_small by exact Ls. rewrite N.ltb_irrefl, N.add_0_l, N.leb_refl. eexists. f_equal.
  unfold read_at. change (N.to_nat 0) with 0. cbn [skipn]. rewrite firstn_all2; [reflexivity|unfold len; lia].
Qed.
(** root is left with a full table: another mark writes outside it, whatever happens in between *)
Theorem C48_next_mark : forall np ss b, length ss = np -> (len (concat ss) < 2^31)%N ->
  pack_sections ss (mpi_new np) = Some b ->
  mpi_mark b = None /\ mpi_mark (mpi_reset b) = None /\
  forall c, mpi_mark (zero_offs np (receive b c)) = None /\ mpi_mark (mpi_reset (zero_offs np (receive b c))) = None.
Proof.
  intros np ss b L T E.
  destruct (pack_sections_ok ss (mpi_new np) [Some 0%Z] 0) as (b' & E' & I' & D' & O1 & O2 & _ & _).
  { apply inv_empty. } { unfold mpi_new. cbn [offs]. rewrite L, Nat.add_0_r. reflexivity. } { reflexivity. }
  { change (pb_size (mb (mpi_new np))) with 0%N. rewrite N.add_0_l. exact T. }
  assert (b' = b) by congruence. subst b'.
  assert (Lo : length (offs b) = octr b).
  { rewrite O1, O2. cbn [repeat]. rewrite app_nil_r, app_length, map_length. f_equal.
    generalize (pb_size (mb (mpi_new np))). clear. induction ss as [|s ss IH]; intros n; cbn [ends length]; [reflexivity|]. now rewrite IH. }
  assert (Lz : length (offs (zero_offs np b)) = octr b).
  { unfold zero_offs. cbn [offs]. rewrite app_length, repeat_length, skipn_length. lia. }
  unfold mpi_mark. cbn [octr offs mpi_reset zero_offs receive setmb] in *. rewrite Lo, Nat.ltb_irrefl. split; [reflexivity|]. split; [reflexivity|].
  intros c. rewrite Lo in Lz. rewrite Lz, Nat.ltb_irrefl. auto.
Qed.
Definition ex_root : mpibuf := match pack_sections [bs "a"; bs "b"] (mpi_new 2) with Some r => r | None => dflt end.
Theorem C48_repeat_refuted : exists w w',
  pack_sections [bs "a"; bs "b"] (mpi_new 2) = Some (nth 0 w dflt) /\ scatter 0 w = Some w' /\
  pack_sections [bs "c"; bs "d"] (mpi_reset (nth 0 w' dflt)) = None.
Proof.
  exists [ex_root; mpi_new 2].
  eexists. split; [vm_compute; reflexivity|]. split; [vm_compute; reflexivity|]. vm_compute. reflexivity.
Qed.
(** the read position of the receivers is not reset *)
Theorem C48_position_refuted : exists w w',
  pack_sections [bs "a"; bs "b"] (mpi_new 2) = Some (nth 0 w dflt) /\ scatter 0 w = Some w' /\
  contents (nth 1 w' dflt) = bs "b" /\
  unpackraw 1 (mb (nth 1 w' dflt)) = Throw PackError (mb (nth 1 w' dflt)).
Proof.
  exists [ex_root; mkmpi (mk_pb (bs "zzz") 3 3) [] 1 false].

  eexists. split; [vm_compute; reflexivity|]. split; [vm_compute; reflexivity|]. split; vm_compute; reflexivity.
Qed.
(** with too few marks scatter reads offsets that were never set *)
Theorem C48_too_few_marks : forall w root ss r, root < length w -> length ss < length w ->
  (len (concat ss) < 2^31)%N -> pack_sections ss (mpi_new (length w)) = Some r -> nth root w dflt = r ->
  scatter root w = None.
Proof.
  intros w root ss r R L T E Hr.
  destruct (pack_sections_ok ss (mpi_new (length w)) [Some 0%Z] (length w - length ss)) as (b' & E' & I' & D' & O1 & O2 & _ & _).
  { apply inv_empty. } { unfold mpi_new. cbn [offs]. replace (length ss + (length w - length ss)) with (length w) by lia. reflexivity. } { reflexivity. }
  { change (pb_size (mb (mpi_new (length w)))) with 0%N. rewrite N.add_0_l. exact T. }
  assert (b' = r) by congruence. subst b'. unfold scatter. rewrite Hr, O1.
  assert (S : forall ss o n m a, (Z.of_N o + Z.of_N (len (concat ss)) < 2^31)%Z -> length ss < n -> 
    sections n (Some a :: map Some (ends o ss) ++ repeat None (S m)) = None).
  { clear. induction ss as [|s ss IH]; intros o n m a T L; destruct n as [|n]; cbn [length] in L; try lia.
    - reflexivity.
    - cbn [ends map app]. rewrite len_concat_cons in T.
      change (sections (S n) (Some a :: Some (Z.of_N (o + len s)) :: map Some (ends (o + len s) ss) ++ repeat None (S m)))
        with (if fits (Z.of_N (o + len s) - a)
              then match sections n (Some (Z.of_N (o + len s)) :: map Some (ends (o + len s) ss) ++ repeat None (S m)) with
                   | Some l => Some ((a, (Z.of_N (o + len s) - a)%Z) :: l) | None => None end else None).
      rewrite IH by lia. destruct (fits _); reflexivity. }
  cbn [app]. destruct (length w - length ss) as [|m] eqn:Q; [lia|]. rewrite S; [reflexivity| |lia].
  change (pb_size (mb (mpi_new (length w)))) with 0%N. rewrite P31n in T. rewrite P31. lia.
Qed.
Example C48_ex : exists w', exists r, pack_sections [bs "ab"; bs ""; bs "cde"] (mpi_new 3) = Some r /\
  scatter 1 [mpi_new 3; r; mpi_new 3] = Some w' /\ map contents w' = [bs "ab"; bs ""; bs "cde"].
Proof. eexists. eexists. split; [vm_compute; reflexivity|]. split; [vm_compute; reflexivity|]. vm_compute. reflexivity. Qed.
Print Assumptions C48_scatter.
Print Assumptions C48_next_mark.
Print Assumptions C48_repeat_refuted.
Print Assumptions C48_position_refuted.
Print Assumptions C48_too_few_marks.

(** ** C61: copying an MPIbuf *)
Theorem C61_copy : forall np cb x b, inv (mb x) -> mpi_copy np cb x = Some b -> contents b = contents x.
Proof.
  intros np cb x b I H. unfold mpi_copy, mpi_assign in H. destruct I as (I1 & I2 & I3).
  destruct (packraw_ok pb_empty (pb_data (mb x)) inv_empty) as (p & E & _ & D & _).
  { change (pb_size pb_empty) with 0%N. rewrite pb_data_len by exact I1. lia. }
  cbn [mb] in H. rewrite E in H. injection H as <-. unfold contents. cbn [mb]. now rewrite D.
Qed.
(** assignment appends *)
Theorem C61_assign_appends : forall np b x b', inv (mb b) -> inv (mb x) ->
  (pb_size (mb b) + pb_size (mb x) < W)%N ->
  mpi_assign np b x = Some b' -> contents b' = contents b ++ contents x /\ cbuf b' = cbuf b.
Proof.
  intros np b x b' I J L H. unfold mpi_assign in H.
  destruct (packraw_ok (mb b) (pb_data (mb x)) I) as (p & E & _ & D & _).
  { rewrite pb_data_len by apply J. exact L. }
  rewrite E in H. injection H as <-. unfold contents. cbn [mb cbuf]. split; [now rewrite D|reflexivity].
Qed.
Theorem C61_assign_refuted : exists b x b', mpi_assign 1 b x = Some b' /\ contents b' <> contents x.
Proof.
  exists (mkmpi (mk_pb (bs "a") 1 0) [Some 0%Z; None] 1 false), (mkmpi (mk_pb (bs "b") 1 0) [Some 0%Z; None] 1 false).
  eexists. split; [vm_compute; reflexivity|]. vm_compute. discriminate.
Qed.
Example C61_ex : exists b, mpi_copy 1 true (mkmpi (mk_pb (bs "b") 1 0) [Some 0%Z; None] 1 false) = Some b /\ contents b = bs "b".
Proof. eexists. split; [vm_compute; reflexivity|]. vm_compute. reflexivity. Qed.
Print Assumptions C61_copy.
Print Assumptions C61_assign_appends.
Print Assumptions C61_assign_refuted.

(** ** C62: send_recv *)
(** when both tags are the same, the first message that matches is received complete *)
Lemma take_match_split : forall p t q m q', take_match p t q = Some (m, q') ->
  exists a b, q = a ++ m :: b /\ q' = a ++ b /\ matches p t m = true /\ forallb (fun x => negb (matches p t x)) a = true.
Proof.
  induction q as [|x q IH]; intros m q' H; cbn [take_match] in H; [discriminate|].
  destruct (matches p t x) eqn:E.
  - injection H as <- <-. exists [], q. auto.
  - destruct (take_match p t q) as [[r q2]|] eqn:E2; [|discriminate]. injection H as <- <-.
    destruct (IH r q2 eq_refl) as (a & b & -> & -> & H1 & H2). exists (x :: a), b. cbn [forallb app]. rewrite E. auto.
Qed.
Theorem C62_same_tag : forall junk t source q a m b,
  q = a ++ m :: b -> matches source t m = true -> forallb (fun x => negb (matches source t x)) a = true ->
  exists p, send_recv junk t source t q = SROk p (msrc m) (mtag m) (a ++ b) /\
            pb_data p = mdata m /\ pb_size p = len (mdata m) /\ pb_pos p = 0%N.
Proof.
  intros junk t source q a m b -> M A. unfold send_recv.
  assert (T : take_match source t (a ++ m :: b) = Some (m, a ++ b)).
  { induction a as [|x a IH]; cbn [app take_match]; [now rewrite M|]. cbn [forallb] in A. apply andb_true_iff in A as [A1 A2].
    destruct (matches source t x); [discriminate|]. now rewrite IH. }
  rewrite T, N.ltb_irrefl. eexists. split; [reflexivity|]. unfold pb_data. cbn [pb_size pb_mem pb_pos].
  split; [|auto]. rewrite <- (N.add_0_l (len (mdata m))) at 1. rewrite write_at_firstn by (rewrite realloc_len; lia). reflexivity.
Qed.
(** the probe uses the tag of the message sent instead of the one wanted *)
Theorem C62_tags_refuted : exists q m, matches 0 2 m = true /\ q = [m] /\ send_recv [] 1 0 2 q = SRBlock.
Proof. exists [mkmsg 0 2 (bs "x")], (mkmsg 0 2 (bs "x")). repeat split. Qed.
Theorem C62_truncate_refuted : exists q, send_recv [] 1 0 2 q = SRTrunc /\ take_match 0 2 q <> None.
Proof. exists [mkmsg 0 2 (bs "xy"); mkmsg 0 1 (bs "x")]. split; [vm_compute; reflexivity|discriminate]. Qed.
Theorem C62_size_refuted : exists q m p q', take_match 0 2 q = Some (m, q') /\ send_recv [] 1 0 2 q = SROk p 0 2 q' /\
  pb_data p <> mdata m.
Proof.
  exists [mkmsg 0 2 (bs "x"); mkmsg 0 1 (bs "xy")]. do 3 eexists. split; [vm_compute; reflexivity|].
  split; [vm_compute; reflexivity|]. vm_compute. discriminate.
Qed.
Example C62_ex : exists p, send_recv [] 5 ANY 5 [mkmsg 3 4 (bs "a"); mkmsg 2 5 (bs "bc")] = SROk p 2 5 [mkmsg 3 4 (bs "a")] /\ pb_data p = bs "bc".
Proof. eexists. split; [vm_compute; reflexivity|]. vm_compute. reflexivity. Qed.
Print Assumptions C62_same_tag.
Print Assumptions C62_tags_refuted.
Print Assumptions C62_truncate_refuted.
Print Assumptions C62_size_refuted.

(** ** C49: master and slaves *)
Section C49.
Variables Req Rep : Type.
Variable run : Req -> option Rep.
Variable np : nat.
Notation sys := (sys Req Rep).
Notation sstep := (sstep Req Rep run np).
Notation srun := (srun Req Rep run np).
Notation sys0 := (sys0 Req Rep np).

(** requests that are answered, sent with exec only *)
Definition proper (e : ev Req) : Prop :=
  match e with EExec r => run r <> None | EBcast _ _ => False | _ => True end.
Definition slave (i : nat) : Prop := 1 <= i < np.

Definition sinv (s : sys) : Prop :=
  NoDup (idle s) /\ (forall i, In i (idle s) -> slave i) /\
  (forall i, In i (idle s) -> inbox s i = [] /\ outbox s i = []) /\
  (forall i, slave i -> ~ In i (idle s) -> length (inbox s i) + length (outbox s i) = 1) /\
  (forall i, ~ slave i -> inbox s i = [] /\ outbox s i = []) /\
  (forall i, map run (sent s i) = map Some (got s i ++ outbox s i) ++ map run (inbox s i)) /\
  (forall i r, In r (inbox s i) -> run r <> None).

Lemma sinv0 : sinv sys0.
Proof.
  unfold sys0. repeat split; cbn [idle inbox outbox sent got]; auto.
  - apply seq_NoDup.
  - apply in_seq in H. lia.
  - apply in_seq in H. lia.
  - intros i S N0. exfalso. apply N0. apply in_seq. unfold slave in S. lia.
Qed.
Lemma fset_same : forall A (f : nat -> A) i a, fset f i a i = a.
Proof. intros. unfold fset. now rewrite Nat.eqb_refl. Qed.
Lemma fset_other : forall A (f : nat -> A) i a j, j <> i -> fset f i a j = f j.
Proof. intros. unfold fset. now destruct (Nat.eqb_spec j i). Qed.
Lemma slave_dec : forall i, slave i \/ ~ slave i.
Proof. intros i. unfold slave. lia. Qed.

Lemma sstep_inv : forall s e s', sinv s -> proper e -> sstep s e = SOk s' -> sinv s'.
Proof.
  intros s e s' (ND & SL & IE & BU & NS & HI & AN) P H. destruct e as [r|i|i|r c]; cbn [sstep MPI_Model.sstep] in H.
  - (* exec *)
    destruct (exists_last (l := idle s)) as (l & d & Hl); [intros E; rewrite E in H; discriminate|].
    assert (Dl : In d (idle s)) by (rewrite Hl; apply in_or_app; right; now left).
    assert (Nd : ~ In d l /\ NoDup l).
    { rewrite Hl in ND. split; [apply NoDup_remove_2 in ND|apply NoDup_remove_1 in ND]; now rewrite app_nil_r in ND. }
    assert (E : s' = mksys l (fset (inbox s) d (inbox s d ++ [r])) (outbox s) (fset (sent s) d (sent s d ++ [r])) (got s)).
    { assert (H' : SOk (mksys (removelast (idle s)) (fset (inbox s) (last (idle s) 0) (inbox s (last (idle s) 0) ++ [r])) (outbox s)
                             (fset (sent s) (last (idle s) 0) (sent s (last (idle s) 0) ++ [r])) (got s)) = SOk s')
        by (unfold send_to in H; cbn [idle inbox outbox sent got] in H; destruct (idle s); [destruct l; discriminate|exact H]).
      rewrite Hl, last_last, removelast_last in H'. congruence. }
    subst s'. clear H. destruct (IE d Dl) as [I0 O0]. unfold sinv. cbn [idle inbox outbox sent got].
    split; [tauto|]. split; [intros i Hi; apply SL; rewrite Hl; apply in_or_app; auto|]. split.
    { intros i Hi. rewrite fset_other by (intros ->; tauto). apply IE. rewrite Hl. apply in_or_app; auto. } split.
    { intros i S N0. destruct (Nat.eq_dec i d) as [->|Ne].
      - rewrite fset_same, I0, O0. reflexivity.
      - rewrite fset_other by exact Ne. apply BU; [exact S|]. rewrite Hl. intros Hin. apply in_app_or in Hin as [?|[?|[]]]; [tauto|congruence]. } split.
    { intros i S. rewrite fset_other by (intros ->; apply S, SL, Dl). now apply NS. } split.
    { intros i. destruct (Nat.eq_dec i d) as [->|Ne]; [|rewrite !fset_other by exact Ne; apply HI].
      rewrite !fset_same, !map_app, HI, !map_app, <- !app_assoc. reflexivity. }
    intros i q. destruct (Nat.eq_dec i d) as [->|Ne]; [|rewrite fset_other by exact Ne; apply AN].
    rewrite fset_same, I0. intros [<-|[]]. exact P.
  - (* run *)
    destruct (inbox s i) as [|r q] eqn:Eb; [discriminate|].
    assert (R : run r <> None) by (apply (AN i); rewrite Eb; now left).
    destruct (run r) as [a|] eqn:Er; [|congruence].
    assert (S : slave i) by (destruct (slave_dec i) as [S|S]; [exact S|]; destruct (NS i S); congruence).
    assert (Ni : ~ In i (idle s)) by (intros Hi; destruct (IE i Hi); congruence).
    assert (B := BU i S Ni). rewrite Eb in B. cbn [length] in B.
    assert (q = []) by (destruct q; [reflexivity|cbn in B; lia]). subst q.
    assert (outbox s i = []) by (destruct (outbox s i); [reflexivity|cbn in B; lia]).
    injection H as <-. unfold sinv. cbn [idle inbox outbox sent got].
    split; [exact ND|]. split; [exact SL|]. split.
    { intros j Hj. rewrite !fset_other by (intros ->; tauto). now apply IE. } split.
    { intros j Sj Nj. destruct (Nat.eq_dec j i) as [->|Ne].
      - rewrite !fset_same. rewrite app_length. cbn [length] in *. lia.
      - rewrite !fset_other by exact Ne. now apply BU. } split.
    { intros j Sj. rewrite !fset_other by (intros ->; tauto). now apply NS. } split.
    { intros j. destruct (Nat.eq_dec j i) as [->|Ne]; [|rewrite !fset_other by exact Ne; apply HI].
      rewrite !fset_same, HI, Eb, !map_app. cbn [map]. rewrite Er, <- !app_assoc, app_nil_r. reflexivity. }
    intros j z. destruct (Nat.eq_dec j i) as [->|Ne]; [rewrite fset_same; intros []|rewrite fset_other by exact Ne; apply AN].
  - (* get *)
    destruct (outbox s i) as [|a q] eqn:Eb; [discriminate|].
    assert (S : slave i) by (destruct (slave_dec i) as [S|S]; [exact S|]; destruct (NS i S); congruence).
    assert (Ni : ~ In i (idle s)) by (intros Hi; destruct (IE i Hi); congruence).
    assert (B := BU i S Ni). rewrite Eb in B. cbn [length] in B.
    assert (q = []) by (destruct q; [reflexivity|cbn in B; lia]). subst q.
    assert (inbox s i = []) by (destruct (inbox s i); [reflexivity|cbn in B; lia]).
    injection H as <-. unfold sinv. cbn [idle inbox outbox sent got].
    split. { apply NoDup_rev in ND. rewrite <- (rev_involutive (idle s ++ [i])). apply NoDup_rev. rewrite rev_app_distr. cbn.
             constructor; [rewrite <- in_rev; exact Ni|exact ND]. }
    split. { intros j Hj. apply in_app_or in Hj as [Hj|[<-|[]]]; [now apply SL|exact S]. } split.
    { intros j Hj. apply in_app_or in Hj as [Hj|[<-|[]]].
      - rewrite fset_other by (intros ->; tauto). now apply IE.
      - rewrite fset_same. auto. } split.
    { intros j Sj Nj. rewrite fset_other by (intros ->; apply Nj, in_or_app; right; now left). apply BU; [exact Sj|].
      intros Hj. apply Nj, in_or_app. now left. } split.
    { intros j Sj. rewrite fset_other by (intros ->; tauto). now apply NS. } split.
    { intros j. destruct (Nat.eq_dec j i) as [->|Ne]; [|rewrite !fset_other by exact Ne; apply HI].
      rewrite !fset_same, HI, Eb, app_nil_r. reflexivity. }
    exact AN.
  - destruct P.
Qed.
Lemma srun_inv : forall es s s', sinv s -> Forall proper es -> srun es s = SOk s' -> sinv s'.
Proof.
  induction es as [|e es IH]; intros s s' I P H; cbn [srun MPI_Model.srun] in H; [now injection H as <-|].
  inversion P as [|? ? P1 P2]; subst. destruct (sstep s e) as [s1| |] eqn:E; try discriminate.
  eapply IH; [|exact P2|exact H]. eapply sstep_inv; eauto.
Qed.

(** each slave is either listed once as idle, with nothing pending, or is busy with exactly one request *)
Theorem C49_bookkeeping : forall es s, Forall proper es -> srun es sys0 = SOk s ->
  NoDup (idle s) /\ (forall i, In i (idle s) -> slave i) /\
  forall i, slave i ->
    (In i (idle s) /\ inbox s i = [] /\ outbox s i = []) \/
    (~ In i (idle s) /\ length (inbox s i) + length (outbox s i) = 1).
Proof.
  intros es s P H. destruct (srun_inv es sys0 s sinv0 P H) as (ND & SL & IE & BU & _).
  split; [exact ND|]. split; [exact SL|]. intros i S. destruct (in_dec Nat.eq_dec i (idle s)); auto.
Qed.
(** when all_idle holds every request has been answered, in order, by the slave it was sent to *)
Theorem C49_all_answered : forall es s, Forall proper es -> srun es sys0 = SOk s -> all_idle Req Rep np s = true ->
  forall i, inbox s i = [] /\ outbox s i = [] /\ map run (sent s i) = map Some (got s i).
Proof.
  intros es s P H A i. destruct (srun_inv es sys0 s sinv0 P H) as (ND & SL & IE & BU & NS & HI & _).
  apply Nat.eqb_eq in A.
  assert (Q : inbox s i = [] /\ outbox s i = []).
  { destruct (slave_dec i) as [S|S]; [|now apply NS]. apply IE.
    assert (I : incl (seq 1 (np - 1)) (idle s)).
    { apply NoDup_length_incl; [exact ND|rewrite seq_length; lia|]. intros j Hj. apply SL in Hj. apply in_seq. unfold slave in Hj. lia. }
    apply I, in_seq. unfold slave in S. lia. }
  destruct Q as [Q1 Q2]. split; [exact Q1|]. split; [exact Q2|]. rewrite HI, Q1, Q2. cbn [map]. now rewrite !app_nil_r.
Qed.
(** exec is defined as long as not all slaves are busy *)
Theorem C49_exec : forall s r, (idle s <> [] <-> exists s', sstep s (EExec r) = SOk s') /\
  (idle s = [] <-> sstep s (EExec r) = SUndef).
Proof.
  intros s r. cbn [sstep MPI_Model.sstep]. destruct (idle s); split; split; intros H; try congruence; try discriminate; eauto.
  destruct H; discriminate.
Qed.
(** while a slave is busy, a slave can run or a reply can be received: wait_all_idle is never stuck *)
Theorem C49_progress : forall es s, Forall proper es -> srun es sys0 = SOk s -> all_idle Req Rep np s = false ->
  exists i s', sstep s (ERun i) = SOk s' \/ sstep s (EGet i) = SOk s'.
Proof.
  intros es s P H A. destruct (srun_inv es sys0 s sinv0 P H) as (ND & SL & IE & BU & NS & HI & _).
  apply Nat.eqb_neq in A.
  destruct (Exists_dec (fun i => ~ In i (idle s)) (seq 1 (np - 1))) as [E|E].
  { intros i. destruct (in_dec Nat.eq_dec i (idle s)); [right|left]; tauto. }
  - apply Exists_exists in E as (i & Hi & Ni). apply in_seq in Hi. assert (S : slave i) by (unfold slave; lia).
    specialize (BU i S Ni). exists i. cbn [sstep MPI_Model.sstep]. destruct (inbox s i) as [|r q]; [|eexists; left; reflexivity].
    destruct (outbox s i) as [|a q]; [cbn in BU; lia|]. eexists. right. reflexivity.
  - exfalso. apply A. apply Nat.le_antisymm.
    + rewrite <- (seq_length (np - 1) 1). apply NoDup_incl_length; [exact ND|]. intros j Hj. apply SL in Hj. apply in_seq. unfold slave in Hj. lia.
    + rewrite <- (seq_length (np - 1) 1) at 1. apply NoDup_incl_length; [apply seq_NoDup|]. intros j Hj.
      destruct (in_dec Nat.eq_dec j (idle s)) as [Q|Q]; [exact Q|]. exfalso. apply E. apply Exists_exists. eauto.
Qed.
(** and it ends: without further requests there are at most two events per slave *)
Definition mu (s : sys) : nat := list_sum (map (fun i => 2 * length (inbox s i) + length (outbox s i)) (seq 1 (np - 1))).
Lemma sum_change : forall (f g : nat -> nat) i l, NoDup l -> In i l -> (forall j, j <> i -> g j = f j) -> f i = S (g i) ->
  list_sum (map f l) = S (list_sum (map g l)).
Proof.
  induction l as [|x l IH]; intros ND Hi E Ei; [destruct Hi|]. inversion ND as [|? ? N1 N2]; subst.
  change (list_sum (map f (x :: l))) with (f x + list_sum (map f l)).
  change (list_sum (map g (x :: l))) with (g x + list_sum (map g l)).
  destruct Hi as [->|Hi].
  - assert (Q : map g l = map f l) by (apply map_ext_in; intros j Hj; apply E; congruence). rewrite Q, Ei. lia.
  - rewrite (IH N2 Hi E Ei), (E x) by congruence. lia.
Qed.
Definition drains (e : ev Req) : Prop := match e with ERun _ | EGet _ => True | _ => False end.
Lemma drain_step : forall s e s', sinv s -> drains e -> sstep s e = SOk s' -> mu s = S (mu s').
Proof.
  intros s e s' (ND & SL & IE & BU & NS & HI & AN) D H. destruct e as [r|i|i|r c]; try contradiction; cbn [sstep MPI_Model.sstep] in H.
  - destruct (inbox s i) as [|r q] eqn:Eb; [discriminate|].
    assert (S : slave i) by (destruct (slave_dec i) as [S|S]; [exact S|]; destruct (NS i S); congruence).
    assert (R : run r <> None) by (apply (AN i); rewrite Eb; now left). destruct (run r) as [a|]; [|congruence].
    injection H as <-. unfold mu. cbn [inbox outbox]. apply sum_change with (i := i).
    + apply seq_NoDup. + apply in_seq. unfold slave in S. lia.
    + intros j Hj. now rewrite !fset_other by exact Hj.
    + rewrite !fset_same, Eb, app_length. cbn [length]. lia.
  - destruct (outbox s i) as [|a q] eqn:Eb; [discriminate|].
    assert (S : slave i) by (destruct (slave_dec i) as [S|S]; [exact S|]; destruct (NS i S); congruence).
    injection H as <-. unfold mu. cbn [inbox outbox]. apply sum_change with (i := i).
    + apply seq_NoDup. + apply in_seq. unfold slave in S. lia.
    + intros j Hj. now rewrite !fset_other by exact Hj.
    + rewrite !fset_same, Eb. cbn [length]. lia.
Qed.
Theorem C49_terminates : forall es s es' s', Forall proper es -> srun es sys0 = SOk s ->
  Forall drains es' -> srun es' s = SOk s' -> length es' <= 2 * (np - 1).
Proof.
  intros es s es' s' P H D H'. assert (I := srun_inv es sys0 s sinv0 P H).
  assert (M : length es' + mu s' = mu s).
  { clear H P. revert s I H'. induction es' as [|e es' IH]; intros s I H'; cbn [srun MPI_Model.srun] in H'; [now injection H' as <-|].
    inversion D as [|? ? D1 D2]; subst. destruct (sstep s e) as [s1| |] eqn:E; try discriminate.
    rewrite (drain_step s e s1 I D1 E). cbn [length]. rewrite <- (IH D2 s1); [lia| |exact H'].
    eapply sstep_inv; [exact I| |exact E]. destruct e; try contradiction; exact Logic.I. }
  enough (mu s <= 2 * (np - 1)) by lia. destruct I as (ND & SL & IE & BU & NS & HI & AN). clear -IE BU NS.
  unfold mu. rewrite <- (seq_length (np - 1) 1) at 2. generalize (seq 1 (np - 1)). intros l. induction l as [|i l IH]; [cbn; lia|].
  cbn [length]. change (list_sum (map ?f (i :: l))) with (f i + list_sum (map f l)). cbn beta.
  assert (2 * length (inbox s i) + length (outbox s i) <= 2); [|lia].
  destruct (slave_dec i) as [S|S]; [|destruct (NS i S) as [-> ->]; cbn; lia].
  destruct (in_dec Nat.eq_dec i (idle s)) as [Q|Q]; [destruct (IE i Q) as [-> ->]; cbn; lia|].
  specialize (BU i S Q). lia.
Qed.
(** bcast: every slave gets the request once, after those it has; nobody else; the books are unchanged *)
Theorem C49_bcast : forall s r c, exists s', sstep s (EBcast r c) = SOk s'
  /\ idle s' = idle s /\ outbox s' = outbox s /\ got s' = got s
  /\ forall i, (slave i -> inbox s' i = inbox s i ++ [r] /\ sent s' i = sent s i ++ [r])
            /\ (~ slave i -> inbox s' i = inbox s i /\ sent s' i = sent s i).
Proof.
  intros s r c. eexists. split; [reflexivity|].
  assert (G : forall l s, NoDup l -> let s' := fold_left (fun s i => send_to Req Rep s i r) l s in
    idle s' = idle s /\ outbox s' = outbox s /\ got s' = got s /\ forall i,
     (In i l -> inbox s' i = inbox s i ++ [r] /\ sent s' i = sent s i ++ [r]) /\ (~ In i l -> inbox s' i = inbox s i /\ sent s' i = sent s i)).
  { clear. induction l as [|j l IH]; intros s ND s'; [cbn; intuition|]. inversion ND as [|? ? NI ND']; subst. subst s'. cbn [fold_left].
    destruct (IH (send_to Req Rep s j r) ND') as (A & B & C & D). rewrite A, B, C. split; [reflexivity|]. split; [reflexivity|]. split; [reflexivity|].
    intros i. destruct (D i) as (D1 & D2). cbn [send_to inbox sent] in D1, D2. unfold fset in D1, D2. destruct (Nat.eqb_spec i j) as [EQ|NE]; [subst i|].
    - split; [|intros X; exfalso; apply X; now left]. intros _. now apply D2.
    - split; intros X; [apply D1|apply D2]; cbn in X; intuition congruence. }
  destruct (G (seq 1 (np - 1)) s (seq_NoDup _ _)) as (A & B & C & D). split; [exact A|]. split; [exact B|]. split; [exact C|]. intros i. destruct (D i) as (D1 & D2).
  split; intros X; [apply D1|apply D2]; rewrite in_seq; unfold slave in X; lia.
Qed.
End C49.
Example C49_ex : match srun nat nat (fun r => Some (r + 100)) 3
    [EExec 1; EExec 2; ERun 1; ERun 2; EGet 2; EExec 3; EGet 1; ERun 2; EGet 2] (sys0 nat nat 3) with
  | SOk s => all_idle nat nat 3 s = true /\ sent s 2 = [1; 3] /\ got s 2 = [101; 103] /\ got s 1 = [102] /\ idle s = [1; 2]
  | _ => False
  end.
Proof. vm_compute. auto. Qed.
(** exec without an idle slave reads the end of an empty vector *)
Theorem C49_exec_refuted : exists es : list (ev nat), srun nat nat Some 2 es (sys0 nat nat 2) = SUndef.
Proof. exists [EExec 1; EExec 2]. reflexivity. Qed.
(** a request whose method sends no reply leaves its slave out of the books: the slave is
    waiting, the master takes it for busy, and wait_all_idle waits for ever *)
Theorem C49_no_reply_refuted : exists (es : list (ev nat)) s, srun nat nat (fun _ => None) 2 es (sys0 nat nat 2) = SOk s /\
  all_idle nat nat 2 s = false /\ forall i, sstep nat nat (fun _ => None) 2 s (ERun i) = SStuck /\
                                          sstep nat nat (fun _ => None) 2 s (EGet i) = SStuck.
Proof.
  exists [EExec 1; ERun 1]. eexists. split; [cbn; reflexivity|]. split; [reflexivity|].
  intros i. cbn. unfold fset. destruct (Nat.eqb_spec i 1) as [->|]; split; reflexivity.
Qed.
(** bcast does not mark the slaves as busy: with methods that reply, slaves get listed twice *)
Theorem C49_bcast_refuted : exists (es : list (ev nat)) s, srun nat nat Some 3 es (sys0 nat nat 3) = SOk s /\
  ~ NoDup (idle s).
Proof.
  exists [EBcast 1 1; ERun 1; EGet 1]. eexists. split; [cbn; reflexivity|]. cbn [idle]. intros H.
  inversion H as [|? ? N1 _]; subst. apply N1. cbn. auto.
Qed.
(** and all_idle holds while requests are unanswered *)
Theorem C49_bcast_wait_refuted : exists (es : list (ev nat)) s, srun nat nat Some 3 es (sys0 nat nat 3) = SOk s /\
  all_idle nat nat 3 s = true /\ inbox s 1 <> [].
Proof. exists [EBcast 1 1]. eexists. split; [cbn; reflexivity|]. split; [reflexivity|]. vm_compute. discriminate. Qed.
(** bcast(c) sends the contents of *this *)
Theorem C49_bcast_data_refuted : exists (r c : nat) s, sstep nat nat Some 2 (sys0 nat nat 2) (EBcast r c) = SOk s /\
  sent s 1 = [r] /\ r <> c.
Proof. exists 1, 2. eexists. split; [cbn; reflexivity|]. split; [reflexivity|discriminate]. Qed.
Print Assumptions C49_bookkeeping.
Print Assumptions C49_all_answered.
Print Assumptions C49_exec.
Print Assumptions C49_progress.
Print Assumptions C49_terminates.
Print Assumptions C49_exec_refuted.
Print Assumptions C49_no_reply_refuted.
Print Assumptions C49_bcast_refuted.
Print Assumptions C49_bcast_wait_refuted.
Print Assumptions C49_bcast_data_refuted.
Print Assumptions C49_bcast.

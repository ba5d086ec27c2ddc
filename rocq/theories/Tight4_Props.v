(** * Further facts closing gaps between the other properties: C12, C17, C52, C61, C62, C89 *)
From Verif Require Import Base Base_Proofs SMap.
From Verif Require Json_Model PackBuf_Model PackBuf_Spec PackBuf_Proofs MPI_Model MPI_Props Tok_Model Tok_Props Tok2_Props PyBuf_Model Xdr_Model Xdr_Spec Xdr_Proofs Graph_Model.

(** ** C61, C62 *)
Section C61.
Import PackBuf_Model PackBuf_Spec PackBuf_Proofs MPI_Model MPI_Props.
(** After [reset] the buffer is empty, whatever was in it, and holds exactly what is packed next. *)
Theorem C61_reset : forall b x, inv (mb b) -> (len x < W)%N ->
  exists b', mpi_pack x (mpi_reset b) = Some b' /\ contents b' = x /\ contents (mpi_reset b) = [].
Proof.
  intros b x (I1 & I2 & I3) L. unfold mpi_pack.
  destruct (packraw_ok (mb (mpi_reset b)) x) as (p & E & _ & D & _).
  - unfold inv, mpi_reset. cbn [mb pb_mem pb_size pb_pos]. lia.
  - unfold mpi_reset. cbn [mb pb_size]. lia.
  - rewrite E. eexists. split; [reflexivity|]. unfold contents. cbn [mb]. rewrite D. split; reflexivity.
Qed.
Print Assumptions C61_reset.
Example C61_reset_ex : inv (mb (mpi_new 2)) /\ (len (bs "ab") < W)%N.
Proof. split; [apply inv_empty|vm_compute; reflexivity]. Qed.

(** [send_recv] with one tag takes the first message that has the tag and comes from the process asked
    for, and leaves all others in order. *)
Definition wanted (source t : Z) (m : msg) : Prop := (source = ANY \/ msrc m = source) /\ (t = ANY \/ mtag m = t).
Lemma matches_spec source t m : matches source t m = true <-> wanted source t m.
Proof.
  unfold matches, wanted. rewrite andb_true_iff, !orb_true_iff, !Z.eqb_eq.
  split; intros [[?|?] [?|?]]; split; auto.
Qed.
Theorem C62_match : forall junk source t q p src tag q', send_recv junk t source t q = SROk p src tag q' ->
  exists a m b, q = a ++ m :: b /\ q' = a ++ b /\ src = msrc m /\ tag = mtag m /\ pb_data p = mdata m
    /\ wanted source t m /\ Forall (fun x => ~ wanted source t x) a.
Proof.
  intros junk source t q p src tag q' H.
  assert (T : exists a m b, q = a ++ m :: b /\ take_match source t q = Some (m, a ++ b) /\ wanted source t m /\ Forall (fun x => ~ wanted source t x) a).
  { unfold send_recv in H. destruct (take_match source t q) as [[pm r]|] eqn:E; [|discriminate]. clear H. revert pm r E.
    induction q as [|x q IH]; intros pm r E; [discriminate|]. cbn [take_match] in E |- *. destruct (matches source t x) eqn:M.
    - injection E as <- <-. exists [], x, q. split; [reflexivity|]. split; [reflexivity|]. split; [now apply matches_spec|constructor].
    - destruct (take_match source t q) as [[y r']|] eqn:E2; [|discriminate]. injection E as <- <-.
      destruct (IH _ _ eq_refl) as (a & m & b & Q1 & Q2 & Q3 & Q4). exists (x :: a), m, b. rewrite Q1 at 1. injection Q2 as -> ->. split; [reflexivity|]. split; [reflexivity|]. split; [exact Q3|].
      constructor; [|exact Q4]. rewrite <- matches_spec. congruence. }
  destruct T as (a & m & b & Q1 & Q2 & Q3 & Q4). exists a, m, b. unfold send_recv in H. rewrite Q2 in H. rewrite N.ltb_irrefl in H. injection H as <- <- <- <-.
  split; [exact Q1|]. split; [reflexivity|]. split; [reflexivity|]. split; [reflexivity|]. split; [|split; [exact Q3|exact Q4]]. unfold pb_data. cbn [pb_mem pb_size].
  pose proof (write_at_firstn (realloc_blk junk [] (len (mdata m))) 0 (mdata m)) as WF. rewrite N.add_0_l in WF. rewrite WF; [reflexivity|]. rewrite realloc_len. lia.
Qed.
Print Assumptions C62_match.
Example C62_match_ex : exists p, send_recv [] 5 ANY 5 [mkmsg 3 4 (bs "a"); mkmsg 2 5 (bs "bc")] = SROk p 2 5 [mkmsg 3 4 (bs "a")].
Proof. eexists. vm_compute. reflexivity. Qed.
End C61.

(** ** C17 *)
Section C17.
Import Xdr_Model Xdr_Spec Xdr_Proofs.
Lemma signed_range b n : (0 < b)%N -> (n < 2 ^ b)%N -> (- 2 ^ (Z.of_N b - 1) <= signed b n < 2 ^ (Z.of_N b - 1))%Z.
Proof.
  intros Hb Hn. unfold signed.
  assert (E : (2 ^ Z.of_N b = 2 * 2 ^ (Z.of_N b - 1))%Z) by (rewrite <- Z.pow_succ_r by lia; f_equal; lia).
  assert (EN : Z.of_N (2 ^ (b - 1)) = (2 ^ (Z.of_N b - 1))%Z) by (rewrite N2Z.inj_pow, N2Z.inj_sub by lia; reflexivity).
  apply N2Z.inj_lt in Hn. rewrite N2Z.inj_pow in Hn. change (Z.of_N 2) with 2%Z in Hn.
  destruct (N.ltb_spec n (2 ^ (b - 1))) as [A|A]; [apply N2Z.inj_lt in A|apply N2Z.inj_le in A]; rewrite EN in A; lia.
Qed.
(** Whatever bytes are read, the number obtained is one of the type asked for. *)
Theorem C17_read_range : forall k b, length b = width k -> k <> KLongDouble -> in_range k (dec k b).
Proof.
  intros k b L NE. assert (U : (unbe b < 256 ^ N.of_nat (width k))%N).
  { unfold unbe. pose proof (unle_bound (rev b)) as B. unfold len in B. rewrite rev_length, L in B. exact B. }
  clear L. unfold in_range. pose proof P32z. pose proof P31z. pose proof P63z. pose proof P64z.
  destruct k; cbn [width dec xrange fst snd] in *; try congruence.
  all: try (change (256 ^ N.of_nat 4)%N with (2 ^ 32)%N in U); try (change (256 ^ N.of_nat 8)%N with (2 ^ 64)%N in U).
  all: try (pose proof (signed_range 32 (unbe b) ltac:(lia) U) as R; change (2 ^ (Z.of_N 32 - 1))%Z with (2 ^ 31)%Z in R).
  all: try (pose proof (signed_range 64 (unbe b) ltac:(lia) U) as R; change (2 ^ (Z.of_N 64 - 1))%Z with (2 ^ 63)%Z in R).
  - pose proof (signed_range 8 _ ltac:(lia) (wrap_lt 8 (signed 32 (unbe b)))) as R2. change (2 ^ (Z.of_N 8 - 1))%Z with 128%Z in R2. unfold trunc_s. lia.
  - assert (unbe b mod 2 ^ 8 < 2 ^ 8)%N by (apply N.mod_lt; discriminate). change (2 ^ 8)%N with 256%N in *. lia.
  - pose proof (signed_range 16 _ ltac:(lia) (wrap_lt 16 (signed 32 (unbe b)))) as R2. change (2 ^ (Z.of_N 16 - 1))%Z with 32768%Z in R2. unfold trunc_s. lia.
  - assert (unbe b mod 2 ^ 16 < 2 ^ 16)%N by (apply N.mod_lt; discriminate). change (2 ^ 16)%N with 65536%N in *. lia.
  - lia.
  - apply N2Z.inj_lt in U. change (Z.of_N (2 ^ 32)) with (2 ^ 32)%Z in U. lia.
  - lia.
  - apply N2Z.inj_lt in U. change (Z.of_N (2 ^ 32)) with (2 ^ 32)%Z in U. lia.
  - lia.
  - apply N2Z.inj_lt in U. change (Z.of_N (2 ^ 64)) with (2 ^ 64)%Z in U. lia.
  - apply N2Z.inj_lt in U. change (Z.of_N (2 ^ 32)) with (2 ^ 32)%Z in U. lia.
  - apply N2Z.inj_lt in U. change (Z.of_N (2 ^ 64)) with (2 ^ 64)%Z in U. lia.
Qed.
Print Assumptions C17_read_range.
Example C17_read_range_ex : length [ascii_of_nat 255; ascii_of_nat 255; ascii_of_nat 255; ascii_of_nat 255] = width KUChar /\ dec KUChar [ascii_of_nat 255; ascii_of_nat 255; ascii_of_nat 255; ascii_of_nat 255] = 255%Z.
Proof. now vm_compute. Qed.
End C17.

(** ** C12 *)
Section C12.
Import Graph_Model.
(** The bytes of a tree: before every node the number 1, for every null pointer the number 0, of four
    bytes each. *)
Theorem C12_bytes : tpk TNull = [ascii_of_nat 0; ascii_of_nat 0; ascii_of_nat 0; ascii_of_nat 0]
  /\ (forall fs, tpk (TNode fs) = [ascii_of_nat 1; ascii_of_nat 0; ascii_of_nat 0; ascii_of_nat 0] ++ tpk_fs fs)
  /\ tpk_fs TFNil = [] /\ (forall b fs, tpk_fs (TFData b fs) = b ++ tpk_fs fs)
  /\ (forall p fs, tpk_fs (TFPtr p fs) = tpk p ++ tpk_fs fs).
Proof. repeat split. Qed.
Print Assumptions C12_bytes.
End C12.

(** ** C52 *)
Section C52.
Import Tok_Model Tok_Props Tok2_Props.
Lemma ident_end : forall w f o tk lt tb x, Forall (fun c => In c idchars) w -> (S (length w) < f)%nat -> In x idchars ->
  ident f (mktin (w ++ [bsl; lf]) false (Some x) o tk lt tb) = TOk tt (mktin [] true None (o ++ w ++ [bsl; lf]) (tk ++ x :: w) lt tb).
Proof.
  induction w as [|y w IH]; intros f o tk lt tb x F L X; (destruct f as [|f]; [cbn in L; lia|]); cbn [ident]; unfold test; cbn [cur];
    rewrite (proj1 (id_plain x X)); unfold take, getnextc, addc; cbn [app settok rest ef cur out token lasttoken tokenBeforeLast].
  - cbn [gn]. destruct f; reflexivity.
  - apply Forall_cons_iff in F as [F F']. destruct (id_plain y F) as (_ & _ & _ & _ & _ & C & D). rewrite (gn_plain y _ C D). cbn [tbind].
    rewrite IH; [|exact F'|cbn in L; lia|exact F]. rewrite <- !app_assoc. reflexivity.
Qed.
Lemma ident_lost : forall w f o tk lt tb x, Forall (fun c => In c idchars) w -> (length w < f)%nat -> In x idchars ->
  exists tk', ident f (mktin w false (Some x) o tk lt tb) = TEof (mktin [] true None (o ++ w) tk' lt tb).
Proof.
  induction w as [|y w IH]; intros f o tk lt tb x F L X; (destruct f as [|f]; [cbn in L; lia|]); cbn [ident]; unfold test; cbn [cur];
    rewrite (proj1 (id_plain x X)); unfold take, getnextc, addc; cbn [app settok rest ef cur out token lasttoken tokenBeforeLast].
  - eexists. rewrite app_nil_r. reflexivity.
  - apply Forall_cons_iff in F as [F F']. destruct (id_plain y F) as (_ & _ & _ & _ & _ & C & D). rewrite (gn_plain y _ C D). cbn [tbind].
    destruct (IH f (o ++ [y]) (tk ++ [x]) lt tb y F' ltac:(cbn in L; lia) F) as (tk' & E). exists tk'. rewrite E, <- app_assoc. reflexivity.
Qed.
Lemma next_word r o tk lt tb x : In x idchars ->
  nexttok (mktin r false (Some x) o tk lt tb) = ident (S (length r)) (mktin r false (Some x) o [] tk lt).
Proof.
  intro X. destruct (id_plain x X) as (A & B & C & D & E & _). unfold nexttok, bound. cbn [rest length again ef cur out token lasttoken tokenBeforeLast].
  change (settok (mktin r false (Some x) o tk tk lt) []) with (mktin r false (Some x) o [] tk lt). cbn [ef].
  assert (SK : skipspace (mktin r false (Some x) o [] tk lt) = TOk tt (mktin r false (Some x) o [] tk lt)) by (unfold skipspace, bound; cbn [rest length while_ cur isspace_o]; now rewrite B).
  rewrite SK. cbn [tbind].
  assert (HK : hashes (bound (mktin r false (Some x) o [] tk lt)) (mktin r false (Some x) o [] tk lt) = TOk false (mktin r false (Some x) o [] tk lt)) by (unfold bound, is; cbn [rest hashes]; unfold is; cbn [cur]; now rewrite C).
  rewrite HK. cbn [tbind ef cur]. rewrite D, E, A. reflexivity.
Qed.
(** An identifier at the very end of the file is dropped... *)
Theorem C52_last_identifier : forall x w, In x idchars -> Forall (fun c => In c idchars) w ->
  lex_file (x :: w) = ([], LEof (x :: w)).
Proof.
  intros x w X F. unfold lex_file, tok_init, getnextc. destruct (id_plain x X) as (_ & _ & _ & _ & _ & C & D). cbn [rest]. rewrite (gn_plain x _ C D).
  cbn [lex out token lasttoken tokenBeforeLast app]. rewrite next_word by exact X.
  destruct (ident_lost w (S (length w)) [x] [] [] [] x F ltac:(lia) X) as (tk' & E). rewrite E. reflexivity.
Qed.
Print Assumptions C52_last_identifier.
(** ...unless the line is marked as continued, but nothing follows. *)
Theorem C52_last_continued : forall x w, In x idchars -> Forall (fun c => In c idchars) w ->
  lex_file (x :: w ++ [bsl; lf]) = ([x :: w], LEof (x :: w ++ [bsl; lf])).
Proof.
  intros x w X F. unfold lex_file, tok_init, getnextc. destruct (id_plain x X) as (_ & _ & _ & _ & _ & C & D). cbn [rest]. rewrite (gn_plain x _ C D).
  cbn [out token lasttoken tokenBeforeLast app]. set (n := length (x :: w ++ [bsl; lf])). cbn [lex]. rewrite next_word by exact X.
  rewrite ident_end; [|exact F|rewrite app_length; cbn [length]; lia|exact X]. subst n. cbn [length lex]. unfold nexttok, bound. cbn [rest length again ef settok]. reflexivity.
Qed.
Print Assumptions C52_last_continued.
Example C52_last_ex : In "a"%char idchars /\ Forall (fun c => In c idchars) (bs "bc").
Proof. split; [|repeat apply Forall_cons; [| |constructor]]; apply C52_identifier_characters; reflexivity. Qed.
End C52.

(** ** C89 *)
Section C89.
Import Json_Model PyBuf_Model.
(** What is read from a Python object as a double: the number itself, an integer or truth value
    converted, -1 for anything else. *)
Theorem C89_double_value : forall klt narrow i2d x h c, look h x = Some c ->
  shr klt narrow i2d TDbl x h = HOk (Some (VD (match ob c with PFloat d => d | PInt z => i2d z | PBool true => i2d 1%Z | PBool false => i2d 0%Z | _ => minus1 end))) h
  /\ shr klt narrow i2d TFlt x h = HOk (Some (VD (narrow (match ob c with PFloat d => d | PInt z => i2d z | PBool true => i2d 1%Z | PBool false => i2d 0%Z | _ => minus1 end)))) h.
Proof.
  intros klt narrow i2d x h c L. cbn [shr]. rewrite L. unfold as_dbl. split; (destruct (ob c) as [| [|] | z | | | |]; reflexivity).
Qed.
Print Assumptions C89_double_value.
Example C89_double_value_ex : look [(3, Cell 1 (PBool false))] 3 = Some (Cell 1 (PBool false)).
Proof. reflexivity. Qed.
End C89.

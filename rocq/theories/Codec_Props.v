(** * Properties of binary serialisation: C04-C07, C09-C11, C46 *)
From Verif Require Import Base PackBuf_Model PackBuf_Spec PackBuf_Proofs.
From Verif Require Import Codec_Model Codec_Spec Codec_Proofs Codec_Proofs2 Codec_Proofs3.

(** example comparator: compares raw representations of keys by first byte *)
Definition ex_key (v : val) : N :=
  match v with
  | VRaw (c :: _) => N_of_ascii c
  | VPair (VRaw (c :: _)) _ => N_of_ascii c
  | _ => 0
  end.
Definition ex_klt (_ : nat) (x y : val) : bool := (ex_key x <? ex_key y)%N.
(** class { map<char, shared_ptr<vector<string>>>; enum; char[3]; std::array<short,2>;
           tuple<char,char>; Exclude<char>; const int } *)
Definition ex_ty : ty :=
  TStruct (FCons MNormal (TAssoc false 0 (TPair (TBasic 1) (TOpt (TSeq (TStr 1)))))
          (FCons MNormal TEnum
          (FCons MNormal (TCharArr 3)
          (FCons MNormal (TArr 2 (TBasic 2))
          (FCons MNormal (TTup (tcons (TBasic 1) (tcons (TBasic 1) tnil)))
          (FCons MSkip (TBasic 1)
          (FCons MConst (TBasic 4)
          (FCons MNormal (TPoly (PCons 7 (TBasic 1) PNil)) FNil)))))))).
Definition ex_val (excl : string) : val :=
  VList [VList [VPair (VRaw (bs "a")) (VOpt None);
                VPair (VRaw (bs "b")) (VOpt (Some (VList [VStr (bs "hello"); VStr []])))];
         VEnum (-3); VRaw (bs "xyz"); VList [VRaw (bs "12"); VRaw (bs "34")];
         VList [VRaw (bs "p"); VRaw (bs "q")]; VRaw (bs excl); VRaw (bs "cnst");
         VPoly (Some (7%N, VRaw (bs "z")))].
Definition ex_old : val := 
  VList [VList []; VEnum 5; VRaw (bs "..."); VList [VRaw (bs "..") ; VRaw (bs "..")];
         VList [VRaw (bs "."); VRaw (bs ".")]; VRaw (bs "E"); VRaw (bs "keep"); VPoly None].

(** C04: packing [v] appends to the buffer; unpacking from where the record starts, into
    any destination, whatever follows, gives the value (members that are not serialised
    keep their old value) and stops right after the record. *)
Theorem C04_roundtrip : forall klt t v old st,
  has_ty klt t v = true -> shape t old = true -> inv st ->
  (pb_size st + len (enc t v) < 2^63)%N ->
  exists st1, pk t v st = Ok tt st1 /\ pb_pos st1 = pb_pos st /\
    pb_data st1 = pb_data st ++ enc t v /\
    forall more st2, packraw more st1 = Ok tt st2 -> (pb_size st1 + len more < 2^63)%N ->
    exists st3,
      up klt t old (mk_pb (pb_mem st2) (pb_size st2) (pb_size st)) = Ok (upd t old v) st3 /\
      pb_pos st3 = (pb_size st + len (enc t v))%N /\ pb_data st3 = pb_data st2.
Proof. exact roundtrip. Qed.
Print Assumptions C04_roundtrip.
(** ... and for types all of whose members are serialised the destination becomes equal
    to the source, whatever it held before. *)
Theorem C04_destination_equal : forall klt t v old,
  plain t = true -> has_ty klt t v = true -> shape t old = true -> upd t old v = v.
Proof. intros klt t v old Hp Hv Ho. exact (proj1 (upd_plain_all klt) t old v Hp Hv Ho). Qed.
Print Assumptions C04_destination_equal.
Example C04_ex : has_ty ex_klt ex_ty (ex_val "x") = true /\ shape ex_ty ex_old = true /\
  match pk ex_ty (ex_val "x") pb_empty with
  | Ok _ st => up ex_klt ex_ty ex_old st =
      Ok (upd ex_ty ex_old (ex_val "x")) (mk_pb (pb_mem st) (pb_size st) (pb_size st))
  | _ => False
  end.
Proof. vm_compute. repeat split. Qed.
Example C04_plain_ex :
  let t := TSeq (TPair (TStr 1) (TOpt TEnum)) in
  let v := VList [VPair (VStr (bs "k")) (VOpt (Some (VEnum 9)))] in
  plain t = true /\ has_ty ex_klt t v = true /\ shape t (VList []) = true.
Proof. vm_compute. repeat split. Qed.
(** an enum value that does not fit an int is silently changed *)
Theorem C04_wide_enum_refuted : exists z old st1,
  pk TEnum (VEnum z) pb_empty = Ok tt st1 /\
  exists st2 z', up ex_klt TEnum old st1 = Ok (VEnum z') st2 /\ z' <> z.
Proof.
  exists (2^32 + 1)%Z, (VEnum 0). eexists. split; [vm_compute; reflexivity|].
  eexists _, _. split; [vm_compute; reflexivity|]. discriminate.
Qed.
Print Assumptions C04_wide_enum_refuted.

(** C05: any list of records *)
Theorem C05_concatenation : forall klt l olds,
  Forall (fun '(t, v) => has_ty klt t v = true) l ->
  Forall2 (fun '(t, v) o => shape t o = true) l olds ->
  (len (enc_recs l) < 2^63)%N ->
  exists st1 st2, pk_recs l pb_empty = Ok tt st1 /\
    up_recs klt (combine (map fst l) olds) st1 =
      Ok (map (fun '((t, v), o) => upd t o v) (combine l olds)) st2 /\
    pb_pos st2 = pb_size st2.
Proof. exact recs_roundtrip. Qed.
Print Assumptions C05_concatenation.
Example C05_ex :
  let l := [(TEnum, VEnum 4); (ex_ty, ex_val "x"); (TStr 1, VStr (bs "end"))] in
  Forall (fun '(t, v) => has_ty ex_klt t v = true) l /\
  Forall2 (fun '(t, v) o => shape t o = true) l [VEnum 0; ex_old; VStr (bs "old")] /\
  (len (enc_recs l) < 2^63)%N.
Proof. repeat split; repeat constructor. Qed.

(** C06: a buffer whose unread part is a strict prefix of a record *)
Theorem C06_truncated : forall klt t v old d n p,
  has_ty klt t v = true -> shape t old = true ->
  (n <= len d)%N -> (len d < 2^63)%N ->
  skipn (N.to_nat n) d = p -> sprefix p (enc t v) ->
  exists x st', up klt t old (buf_with d n) = Throw x st'.
Proof.
  intros klt t v old d n p Hv Ho Hn Hd <- Hp.
  eapply truncated; eauto. now apply has_buf_with.
Qed.
Print Assumptions C06_truncated.
Example C06_ex : exists p, sprefix p (enc ex_ty (ex_val "x")) /\ (30 < len p)%N.
Proof.
  exists (firstn 31 (enc ex_ty (ex_val "x"))). split; [|vm_compute; reflexivity].
  exists (skipn 31 (enc ex_ty (ex_val "x"))). split; [|vm_compute; discriminate].
  symmetry. apply firstn_skipn.
Qed.

(** C07: deepEq *)
Theorem C07_deepEq : forall klt mag t x y,
  plain t = true -> has_ty klt t x = true -> has_ty klt t y = true ->
  (len (enc t x) < 2^63)%N -> (len (enc t y) < 2^63)%N ->
  exists b, deepEq mag t x y = Some b /\ (b = true <-> x = y).
Proof. exact deepEq_plain. Qed.
Print Assumptions C07_deepEq.
(** with unserialised members: equal iff the serialised parts are *)
Theorem C07_deepEq_general : forall klt mag t x y,
  has_ty klt t x = true -> has_ty klt t y = true ->
  (len (enc t x) < 2^63)%N -> (len (enc t y) < 2^63)%N ->
  exists b, deepEq mag t x y = Some b /\ (b = true <-> enc t x = enc t y) /\
    (b = true -> forall old, shape t old = true -> upd t old x = upd t old y).
Proof.
  intros klt mag t x y Hx Hy Lx Ly.
  destruct (deepEq_enc klt mag t x y Hx Hy) as (b & E & B); try now apply P63_W.
  exists b. repeat split; auto; try apply B.
  intros Hb old Ho. eapply enc_determines; eauto. now apply B.
Qed.
Print Assumptions C07_deepEq_general.
Example C07_ex :
  let t := TSeq (TStr 1) in
  let x := VList [VStr (bs "ab"); VStr (bs "c")] in
  let y := VList [VStr (bs "a"); VStr (bs "bc")] in
  has_ty ex_klt t x = true /\ has_ty ex_klt t y = true /\
  deepEq (fun _ _ => 1%positive) t x x = Some true /\
  deepEq (fun _ _ => 1%positive) t x y = Some false.
Proof. vm_compute. repeat split. Qed.

(** C09: arbitrary bytes.  No undefined behaviour for types without smart pointers, from
    any buffer that does not contain eight consecutive 0xFF bytes; the buffer itself is
    never modified.  Missing for the full claim: see the two refutations. *)
Theorem C09_hostile_bytes_partial : forall klt t old d n,
  ty_ok t = true -> no_ptr t = true -> shape t old = true ->
  (n <= len d)%N -> (len d < 2^63)%N -> no_ff8 d ->
  exists st', pb_data st' = d /\ (pb_pos st' <= len d)%N /\
   ((exists v, up klt t old (buf_with d n) = Ok v st' /\ shape t v = true) \/
    (exists e, up klt t old (buf_with d n) = Throw e st')).
Proof.
  intros klt t old d n Ht Hp Ho Hn Hd Hff.
  assert (DD : pb_data (buf_with d n) = d).
  { unfold pb_data, buf_with; cbn [pb_size pb_mem]. apply firstn_all2. unfold len. Lia.lia. }
  destruct (has_buf_with d n Hn Hd) as [Hok _].
  pose proof (proj1 (proj1 (up_safe_all klt) t) Ht Hp old Ho (buf_with d n) Hok) as S.
  rewrite DD in S. specialize (S Hff).
  destruct (up klt t old (buf_with d n)) as [v s|e s|]; [| |contradiction].
  - destruct S as ((S1 & S2 & S3) & S4 & S5 & S6). exists s. split; [|split].
    + unfold pb_data in *. now rewrite S4, S5.
    + rewrite S5 in S1. exact S1.
    + left; exists v; auto.
  - destruct S as ((S1 & S2 & S3) & S4 & S5). exists s. split; [|split].
    + unfold pb_data in *. now rewrite S4, S5.
    + rewrite S5 in S1. exact S1.
    + right; exists e; auto.
Qed.
Print Assumptions C09_hostile_bytes_partial.
(** what is accepted is a well-formed value: in particular ordered containers come out
    ordered and duplicate free *)
Theorem C09_accepted_is_wellformed_partial : forall klt t old d n v st',
  strict_weak klt -> plain t = true -> ty_ok t = true -> no_ptr t = true ->
  has_ty klt t old = true -> (n <= len d)%N -> (len d < 2^63)%N -> no_ff8 d ->
  up klt t old (buf_with d n) = Ok v st' -> has_ty klt t v = true.
Proof.
  intros klt t old d n v st' SW Hpl Ht Hp Ho Hn Hd Hff E.
  assert (DD : pb_data (buf_with d n) = d).
  { unfold pb_data, buf_with; cbn [pb_size pb_mem]. apply firstn_all2. unfold len. Lia.lia. }
  destruct (has_buf_with d n Hn Hd) as [Hok _].
  pose proof (proj1 (up_typed_all klt SW) t Hpl Ht Hp old Ho (buf_with d n) Hok) as S.
  rewrite DD in S. specialize (S Hff). rewrite E in S. apply S.
Qed.
Print Assumptions C09_accepted_is_wellformed_partial.
Example C09_ex :
  let t := TAssoc false 0 (TBasic 1) in
  strict_weak ex_klt /\ ty_ok t = true /\ no_ptr t = true /\
  no_ff8 (le 8 3 ++ bs "baa") /\
  exists st, up ex_klt t (VList []) (buf_with (le 8 3 ++ bs "baa") 0) =
    Ok (VList [VRaw (bs "a"); VRaw (bs "b")]) st.
Proof.
  repeat split.
  - intros c x y H. unfold ex_klt in *. Lia.lia.
  - intros c x y z H. unfold ex_klt in *. Lia.lia.
  - intros pre post E. apply (f_equal (fun l => existsb (Ascii.eqb "255"%char) l)) in E.
    rewrite !existsb_app in E. cbn in E. rewrite !orb_true_r in E. discriminate.
  - eexists. vm_compute. reflexivity.
Qed.
(** eight bytes 0xFF unpacked as a string read out of bounds *)
Theorem C09_string_length_refuted : exists d,
  len d = 8%N /\ up ex_klt (TStr 1) (VStr []) (buf_with d 0) = UB.
Proof. exists (repeat "255"%char 8). vm_compute. auto. Qed.
Print Assumptions C09_string_length_refuted.
(** a validity flag other than 0 or 1 makes the code load an invalid bool *)
Theorem C09_bool_refuted : exists d,
  len d = 1%N /\ up ex_klt (TOpt (TBasic 1)) (VOpt None) (buf_with d 0) = UB.
Proof. exists ["002"%char]. vm_compute. auto. Qed.
Print Assumptions C09_bool_refuted.

(** C10: a stored count not larger than N is handled: exactly the stored elements are
    consumed, the rest of the array is kept. *)
Theorem C10_array_short_count_partial : forall klt n te vs olds rest,
  forallb (has_ty klt te) vs = true -> forallb (shape te) olds = true ->
  length olds = n -> (length vs <= n)%nat -> (N.of_nat n < W)%N ->
  let e := le 8 (len vs) ++ concat (map (enc te) vs) in
  (len (e ++ rest) < 2^63)%N ->
  up klt (TArr n te) (VList olds) (buf_with (e ++ rest) 0) =
    Ok (VList (map2 (upd te) olds vs ++ skipn (length vs) olds))
       (buf_with (e ++ rest) (len e)).
Proof. exact up_array_short. Qed.
Print Assumptions C10_array_short_count_partial.
Example C10_ex :
  forallb (has_ty ex_klt (TBasic 1)) [VRaw (bs "a")] = true /\
  forallb (shape (TBasic 1)) [VRaw (bs "x"); VRaw (bs "y")] = true /\
  up ex_klt (TArr 2 (TBasic 1)) (VList [VRaw (bs "x"); VRaw (bs "y")])
     (buf_with (le 8 1 ++ bs "a" ++ bs "rest") 0) =
  Ok (VList [VRaw (bs "a"); VRaw (bs "y")]) (buf_with (le 8 1 ++ bs "a" ++ bs "rest") 9).
Proof. vm_compute. repeat split. Qed.
(** a larger stored count leaves the surplus elements in the stream, where the next
    member picks them up *)
Theorem C10_array_long_count_refuted : exists d st',
  d = enc (TSeq (TBasic 1)) (VList [VRaw (bs "a"); VRaw (bs "b")]) ++ enc (TBasic 1) (VRaw (bs "z")) /\
  up ex_klt (TPair (TArr 1 (TBasic 1)) (TBasic 1)) (VPair (VList [VRaw (bs "?")]) (VRaw (bs "?")))
     (buf_with d 0) = Ok (VPair (VList [VRaw (bs "a")]) (VRaw (bs "b"))) st'.
Proof. eexists _, _. split; [reflexivity|]. vm_compute. reflexivity. Qed.
Print Assumptions C10_array_long_count_refuted.

(** C11 *)
Theorem C11_skipped_no_bytes : forall fs vs st,
  shape_flds fs vs = true ->
  pk (TStruct fs) (VList vs) st =
  pk (TStruct (drop_skipped fs)) (VList (drop_skipped_vals fs vs)) st.
Proof. intros fs vs st H. exact (pk_drop fs vs st H). Qed.
Print Assumptions C11_skipped_no_bytes.
(** on any input whatever *)
Theorem C11_skipped_unchanged : forall klt fs olds st r st' i k,
  up klt (TStruct fs) (VList olds) st = Ok (VList r) st' ->
  kind_at fs i = Some k -> k <> MNormal -> nth_error r i = nth_error olds i.
Proof.
  intros klt fs olds st r st' i k E. cbn [up as_list] in E.
  apply bind_ok in E as (r' & s & E1 & E). injection E as <- _.
  eapply up_flds_kept; eauto.
Qed.
Print Assumptions C11_skipped_unchanged.
Theorem C11_raw_pointer_throws : forall klt v old st,
  pk TRawPtr v st = Throw PackError st /\ up klt TRawPtr old st = Throw PackError st.
Proof. intros klt v old st. split; [destruct v; reflexivity|reflexivity]. Qed.
Print Assumptions C11_raw_pointer_throws.
Theorem C11_raw_pointer_member : forall klt fs v st a st',
  has_raw fs = true ->
  pk (TStruct fs) v st <> Ok a st' /\ 
  (forall old r, up klt (TStruct fs) old st <> Ok r st').
Proof.
  intros klt fs v st a st' H. split.
  - destruct v; try discriminate. now apply raw_never_packs.
  - intros old r E. cbn [up] in E. apply bind_ok in E as (r' & s & E1 & E).
    now apply raw_never_unpacks in E1.
Qed.
Print Assumptions C11_raw_pointer_member.
Example C11_ex :
  let fs := match ex_ty with TStruct fs => fs | _ => FNil end in
  shape_flds fs (as_list (ex_val "x")) = true /\ kind_at fs 5 = Some MSkip /\
  enc ex_ty (ex_val "x") = enc ex_ty (ex_val "y") /\
  has_raw (FCons MNormal TEnum (FCons MNormal TRawPtr FNil)) = true.
Proof. vm_compute. repeat split. Qed.

(** C46: polymorphic smart pointers recreate dynamic type and contents; null becomes
    null, whatever the destination pointed at. *)
Theorem C46_poly_roundtrip : forall klt p o old,
  has_ty klt (TPoly p) (VPoly o) = true -> plain (TPoly p) = true ->
  (len (enc (TPoly p) (VPoly o)) < 2^63)%N ->
  exists st1 st2, pk (TPoly p) (VPoly o) pb_empty = Ok tt st1 /\
    up klt (TPoly p) old st1 = Ok (VPoly o) st2 /\ pb_pos st2 = pb_size st2.
Proof.
  intros klt p o old Hv Hp HL.
  destruct (recs_roundtrip klt [(TPoly p, VPoly o)] [old]) as (st1 & st2 & E1 & E2 & E3).
  - constructor; auto.
  - constructor; auto.
  - cbn [enc_recs]. rewrite app_nil_r. exact HL.
  - cbn [pk_recs up_recs combine map fst] in E1, E2.
    apply bind_ok in E1 as ([] & s1 & E1 & E1'). injection E1' as <-.
    apply bind_ok in E2 as (x & s2 & E2 & E2').
    apply bind_ok in E2' as (r & s3 & E2b & E2'). injection E2b as <- <-.
    injection E2' as E <-. exists s1, s2. repeat split; auto.
    rewrite E2. f_equal. rewrite E. exact (proj1 (upd_plain_all klt) (TPoly p) old (VPoly o) Hp Hv eq_refl).
Qed.
Print Assumptions C46_poly_roundtrip.
Example C46_ex :
  let p := PCons 3 (TStr 1) (PCons 8 (TSeq TEnum) PNil) in
  has_ty ex_klt (TPoly p) (VPoly (Some (8%N, VList [VEnum 4]))) = true /\
  has_ty ex_klt (TPoly p) (VPoly None) = true /\ plain (TPoly p) = true.
Proof. vm_compute. repeat split. Qed.

(** * Java class files (C56, C67) *)
From Verif Require Import Base Base_Proofs Java_Model.

(** ** Specification *)
(** [k] bytes of [n], most significant first *)
Definition be (k : nat) (n : N) : list ascii := rev (le k n).

(** The class file format (JVM specification, 4.1-4.7): every number most significant
    byte first, every element count 16 bits wide, long and double constants counted
    twice. *)
Definition f_cp (c : cp_info) : list ascii :=
  ascii_of_N (tag c) ::
  match info c with
  | PNone => []
  | PU2 v => be 2 v
  | PRef a b | PNT a b => be 2 a ++ be 2 b
  | PU4 v => be 4 v
  | PU8 v => be 8 v
  | PStr s => be 2 (len s) ++ s
  end.
Definition wide (c : cp_info) : N := match info c with PU8 _ => 1 | _ => 0 end.
Definition total {A} (f : A -> N) (l : list A) : N := fold_right (fun x n => f x + n)%N 0%N l.
Definition f_pool (p : list cp_info) : list ascii :=
  be 2 (len p + total wide (tl p)) ++ flat_map f_cp (tl p).
Definition f_vec {A} (f : A -> list ascii) (l : list A) : list ascii :=
  be 2 (len l) ++ flat_map f l.
Definition f_at (a : attribute_info) : list ascii :=
  be 2 (attribute_name_index a) ++ be 4 (len (ainfo a)) ++ ainfo a.
Definition f_mem (m : member_info) : list ascii :=
  be 2 (access_flags m) ++ be 2 (name_index m) ++ be 2 (descriptor_index m) ++
  f_vec f_at (mattributes m).
Definition f_class (c : class_file) : list ascii :=
  be 4 (magic c) ++ be 2 (minor_version c) ++ be 2 (major_version c) ++
  f_pool (constant_pool c) ++ be 2 (cflags c) ++ be 2 (this_class c) ++
  be 2 (super_class c) ++ f_vec (be 2) (interfaces c) ++ f_vec f_mem (fields c) ++
  f_vec f_mem (methods c) ++ f_vec f_at (attributes c).

(** numbers fit their fields, payloads have the type of their tag, and counts and string
    lengths are below 2^15 *)
Definition w2 (v : N) := (v < 2 ^ 16)%N.
Definition small {A} (l : list A) := (len l < 2 ^ 15)%N.
Definition wf_cp (c : cp_info) : Prop :=
  (tag c < 256)%N /\
  match kind_of (tag c), info c with
  | KNone, _ => True
  | KU2, PU2 v => w2 v
  | KRef, PRef a b => w2 a /\ w2 b
  | KU4, PU4 v => (v < 2 ^ 32)%N
  | KU8, PU8 v => (v < 2 ^ 64)%N
  | KNT, PNT a b => w2 a /\ w2 b
  | KStr, PStr s => small s
  | _, _ => False
  end.
Definition wf_at (a : attribute_info) := w2 (attribute_name_index a) /\ (len (ainfo a) < 2 ^ 32)%N.
Definition wf_mem (m : member_info) :=
  w2 (access_flags m) /\ w2 (name_index m) /\ w2 (descriptor_index m) /\
  small (mattributes m) /\ Forall wf_at (mattributes m).
Definition wf_class (c : class_file) :=
  (magic c < 2 ^ 32)%N /\ w2 (minor_version c) /\ w2 (major_version c) /\
  (small (constant_pool c) /\ Forall wf_cp (tl (constant_pool c))) /\
  w2 (cflags c) /\ w2 (this_class c) /\ w2 (super_class c) /\
  (small (interfaces c) /\ Forall w2 (interfaces c)) /\
  (small (fields c) /\ Forall wf_mem (fields c)) /\
  (small (methods c) /\ Forall wf_mem (methods c)) /\
  (small (attributes c) /\ Forall wf_at (attributes c)).
(** constants the reader knows *)
Definition known (c : cp_info) := kind_of (tag c) <> KNone.

(** ** Numbers *)
Lemma le_snoc k n : le (S k) n = le k n ++ [ascii_of_N (n / 256 ^ N.of_nat k mod 256)].
Proof.
  revert n; induction k as [|k IH]; intro n.
  - cbn [le app]. change (256 ^ N.of_nat 0)%N with 1%N. now rewrite N.div_1_r.
  - change (le (S (S k)) n) with (ascii_of_N (n mod 256) :: le (S k) (n / 256)).
    rewrite IH. cbn [le app]. do 3 f_equal.
    replace (N.of_nat (S k)) with (N.succ (N.of_nat k)) by lia.
    rewrite N.pow_succ_r', N.div_div by (try apply N.pow_nonzero; lia).
    reflexivity.
Qed.
Lemma be_S k n : be (S k) n = ascii_of_N (n / 256 ^ N.of_nat k mod 256) :: be k n.
Proof. unfold be. rewrite le_snoc, rev_app_distr. reflexivity. Qed.
Lemma be_length k n : length (be k n) = k.
Proof. unfold be. rewrite rev_length. apply le_length. Qed.
Lemma be_len k n : len (be k n) = N.of_nat k.
Proof. unfold len. now rewrite be_length. Qed.
Lemma shift_pow v k : N.shiftr v (8 * k) = (v / 256 ^ k)%N.
Proof. rewrite N.shiftr_div_pow2, N.pow_mul_r. reflexivity. Qed.
Lemma put_be_be k v : put_be k v = be k v.
Proof.
  induction k as [|k IH]; [reflexivity|].
  rewrite be_S. cbn [put_be]. now rewrite shift_pow, IH.
Qed.

(** Every number is written most significant byte first, and these bytes determine it. *)
Theorem C56_big_endian : forall k v,
  put_be k v = be k v /\ length (put_be k v) = k /\
  ((v < 256 ^ N.of_nat k)%N -> unle (rev (put_be k v)) = v).
Proof.
  intros k v. rewrite put_be_be. split; [reflexivity|]. split; [apply be_length|].
  intro H. unfold be. rewrite rev_involutive. now apply unle_le.
Qed.
Example C56_big_endian_ex : put_be 4 3405691582 = map ascii_of_N [202; 254; 186; 190]%N.
Proof. reflexivity. Qed.
Print Assumptions C56_big_endian.

Definition reads {A} (g : rd A) (b : list ascii) (x : A) : Prop :=
  forall rest, g (b ++ rest) = Ok x rest.

Lemma lor_byte a q : (q < 256)%N -> N.lor (a * 256) q = (a * 256 + q)%N.
Proof.
  intro Hq. assert (H0 : N.land (a * 256) q = 0%N).
  { apply N.bits_inj_0. intro i. rewrite N.land_spec.
    change 256%N with (2 ^ 8)%N. destruct (N.lt_ge_cases i 8) as [Hi|Hi].
    + now rewrite N.mul_pow2_bits_low.
    + rewrite (N.testbit_eqb q). rewrite (N.div_small q).
      * apply andb_false_r.
      * apply N.lt_le_trans with 256%N; [exact Hq|]. change 256%N with (2 ^ 8)%N.
        apply N.pow_le_mono_r; lia. }
  rewrite <- (N.lxor_lor _ _ H0). symmetry. now apply N.add_nocarry_lxor.
Qed.
Lemma be_mod k v : be k v = be k (v mod 256 ^ N.of_nat k).
Proof.
  unfold be. f_equal. revert v. induction k as [|k IH]; intro v; [reflexivity|].
  cbn [le]. replace (N.of_nat (S k)) with (N.succ (N.of_nat k)) by lia.
  rewrite N.pow_succ_r'.
  assert (HQ : (256 ^ N.of_nat k)%N <> 0%N) by (apply N.pow_nonzero; lia).
  rewrite N.mod_mul_r by lia.
  assert (E1 : ((v mod 256 + 256 * ((v / 256) mod 256 ^ N.of_nat k)) mod 256 = v mod 256)%N).
  { rewrite (N.mul_comm 256). rewrite N.mod_add by lia. apply N.mod_mod. lia. }
  assert (E2 : ((v mod 256 + 256 * ((v / 256) mod 256 ^ N.of_nat k)) / 256 = (v / 256) mod 256 ^ N.of_nat k)%N).
  { rewrite (N.mul_comm 256). rewrite N.div_add by lia.
    rewrite (N.div_small (v mod 256)) by (apply N.mod_lt; lia). lia. }
  rewrite E1, E2. now rewrite <- IH.
Qed.
Lemma get_be_ok w k : forall v rest a,
  (a * 256 ^ N.of_nat k + v < 2 ^ w)%N -> (v < 256 ^ N.of_nat k)%N ->
  get_be w k a (be k v ++ rest) = Ok (a * 256 ^ N.of_nat k + v)%N rest.
Proof.
  induction k as [|k IH]; intros v rest a Ha Hv.
  - change (256 ^ N.of_nat 0)%N with 1%N in *. cbn [be le rev app get_be]. unfold ret.
    f_equal. lia.
  - rewrite be_S. cbn [get_be app]. unfold bind, get1.
    replace (N.of_nat (S k)) with (N.succ (N.of_nat k)) in * by lia.
    rewrite N.pow_succ_r' in *.
    set (P := (256 ^ N.of_nat k)%N) in *.
    assert (HP : (0 < P)%N).
    { unfold P. apply N.neq_0_lt_0, N.pow_nonzero. lia. }
    assert (Hq : (v / P < 256)%N) by (apply N.div_lt_upper_bound; lia).
    rewrite N_ascii_embedding by (apply N.mod_lt; lia).
    rewrite (N.mod_small (v / P)) by lia.
    rewrite N.land_comm. change 255%N with (N.ones 8). rewrite N.land_ones.
    rewrite (N.mod_small (v / P)) by exact Hq.
    rewrite N.shiftl_mul_pow2. change (2 ^ 8)%N with 256%N.
    assert (Ha2 : (a * 256 < 2 ^ w)%N) by nia.
    rewrite (N.mod_small _ (2 ^ w)) by exact Ha2.
    rewrite lor_byte by exact Hq.
    rewrite (be_mod k v). fold P. rewrite IH; fold P.
    + f_equal. pose proof (N.div_mod v P ltac:(lia)). nia.
    + pose proof (N.div_mod v P ltac:(lia)). nia.
    + apply N.mod_lt. lia.
Qed.
(** ** Reading back *)
Lemma reads_ret A (x : A) : reads (ret x) [] x.
Proof. intro rest. reflexivity. Qed.
Lemma reads_bind A B (g : rd A) (h : A -> rd B) b b' x y :
  reads g b x -> reads (h x) b' y -> reads (bind g h) (b ++ b') y.
Proof. intros Hg Hh rest. unfold bind. rewrite <- app_assoc, Hg. apply Hh. Qed.
Lemma reads_map A B (g : rd A) (h : A -> B) b x :
  reads g b x -> reads (bind g (fun v => ret (h v))) b (h x).
Proof. intros Hg rest. unfold bind. now rewrite Hg. Qed.
Lemma reads_u2 v : w2 v -> reads get_u2 (put_u2 v) v.
Proof.
  intros H rest. unfold get_u2, put_u2. rewrite put_be_be. rewrite get_be_ok.
  - reflexivity.
  - change (256 ^ N.of_nat 2)%N with (2 ^ 16)%N. unfold w2 in H. lia.
  - exact H.
Qed.
Lemma reads_u4 v : (v < 2 ^ 32)%N -> reads get_u4 (put_u4 v) v.
Proof.
  intros H rest. unfold get_u4, put_u4. rewrite put_be_be. rewrite get_be_ok.
  - reflexivity.
  - change (256 ^ N.of_nat 4)%N with (2 ^ 32)%N. lia.
  - exact H.
Qed.
Lemma reads_u8 v : (v < 2 ^ 64)%N -> reads get_u8 (put_u8 v) v.
Proof.
  intros H rest. unfold get_u8, put_u8. rewrite put_be_be. rewrite get_be_ok.
  - reflexivity.
  - change (256 ^ N.of_nat 8)%N with (2 ^ 64)%N. lia.
  - exact H.
Qed.
Lemma reads_raw s n : n = len s -> reads (getraw n) s s.
Proof.
  intros -> rest. unfold getraw. rewrite len_app.
  destruct (_ <? _)%N eqn:E; [apply N.ltb_lt in E; lia|].
  unfold len. rewrite Nnat.Nat2N.id. now rewrite firstn_app_l, skipn_app_l.
Qed.
Lemma small_u2 A (l : list A) : small l ->
  to_u2 (len l) = len l /\ short_of (len l) = Z.of_N (len l) /\ w2 (len l).
Proof.
  unfold small, to_u2, short_of, w2. intro H.
  change (2 ^ 15)%N with 32768%N in *. change (2 ^ 16)%N with 65536%N.
  repeat split.
  - apply N.mod_small. lia.
  - destruct (_ <? _)%N eqn:E; [reflexivity|]. apply N.ltb_ge in E. lia.
  - lia.
Qed.
Lemma size_of_nat_short n : (n < 2 ^ 15)%N -> size_of_short (Z.of_N n) = n.
Proof.
  intro H. unfold size_of_short. rewrite Z.mod_small; [lia|].
  change (2 ^ 15)%N with 32768%N in H. change (2 ^ 64)%Z with 18446744073709551616%Z. lia.
Qed.
Lemma reads_str s : small s ->
  put_str s = Some (put_u2 (len s) ++ s) /\ reads get_str (put_u2 (len s) ++ s) s.
Proof.
  intro H. destruct (small_u2 _ _ H) as (E1 & E2 & E3). unfold put_str, get_str.
  rewrite E1, E2. destruct (_ <? 0)%Z eqn:E; [apply Z.ltb_lt in E; lia|]. split.
  - do 2 f_equal. unfold len. rewrite Nnat.Nat2N.id. apply firstn_all.
  - apply reads_bind with (len s); [now apply reads_u2|]. rewrite E2, E.
    rewrite size_of_nat_short by exact H. now apply reads_raw.
Qed.

(** a constant read over [old] *)
Definition over (old c : cp_info) : cp_info :=
  match kind_of (tag c) with KNone => old | _ => c end.
Lemma reads_cp c : wf_cp c -> exists b, put_cp c = Some b /\
  (1 <= length b)%nat /\ forall old, reads (get_cp old) b (over old c).
Proof.
  destruct c as [t i]. unfold wf_cp, put_cp, over; cbn [tag info]. intros [Ht H].
  assert (H1 : forall old b x,
    reads (match kind_of t with
      | KNone => ret old
      | KU2 => v <- get_u2 ;; ret (Cp t (PU2 v))
      | KRef => x <- get_u2 ;; y <- get_u2 ;; ret (Cp t (PRef x y))
      | KU4 => v <- get_u4 ;; ret (Cp t (PU4 v))
      | KU8 => v <- get_u8 ;; ret (Cp t (PU8 v))
      | KNT => x <- get_u2 ;; y <- get_u2 ;; ret (Cp t (PNT x y))
      | KStr => s <- get_str ;; ret (Cp t (PStr s)) end) b x ->
    reads (get_cp old) (ascii_of_N t :: b) x).
  { intros old b x Hr rest. unfold get_cp, bind at 1, get1. cbn [app].
    rewrite N_ascii_embedding by exact Ht. apply Hr. }
  destruct (kind_of t) eqn:K; destruct i; try contradiction;
    try (eexists; split; [reflexivity|]; split; [cbn; lia|]; intro old; apply H1; apply reads_ret).
  - eexists; split; [reflexivity|]; split; [cbn; lia|]; intro old; apply H1.
    apply (reads_map _ _ get_u2 (fun v => Cp t (PU2 v))). now apply reads_u2.
  - eexists; split; [reflexivity|]; split; [cbn; lia|]; intro old; apply H1.
    destruct H as [Ha Hb]. apply reads_bind with a; [now apply reads_u2|].
    apply (reads_map _ _ get_u2 (fun v => Cp t (PRef a v))). now apply reads_u2.
  - eexists; split; [reflexivity|]; split; [cbn; lia|]; intro old; apply H1.
    apply (reads_map _ _ get_u4 (fun v => Cp t (PU4 v))). now apply reads_u4.
  - eexists; split; [reflexivity|]; split; [cbn; lia|]; intro old; apply H1.
    apply (reads_map _ _ get_u8 (fun v => Cp t (PU8 v))). now apply reads_u8.
  - eexists; split; [reflexivity|]; split; [cbn; lia|]; intro old; apply H1.
    destruct H as [Ha Hb]. apply reads_bind with a; [now apply reads_u2|].
    apply (reads_map _ _ get_u2 (fun v => Cp t (PNT a v))). now apply reads_u2.
  - destruct (reads_str s H) as [E R]. rewrite E.
    eexists; split; [reflexivity|]; split; [cbn; lia|]; intro old; apply H1.
    now apply (reads_map _ _ get_str (fun v => Cp t (PStr v))).
Qed.

(** constants read over the entries of [old] *)
Fixpoint overs (old p : list cp_info) : list cp_info :=
  match p with
  | [] => []
  | c :: p' => over (hd cp0 old) c :: overs (tl old) p'
  end.
Definition over_pool (old p : list cp_info) : list cp_info :=
  match p with [] => [] | _ :: p' => hd cp0 old :: overs (tl old) p' end.
Lemma resize_S A (d : A) n l : resize d (S n) l = hd d l :: resize d n (tl l).
Proof.
  unfold resize. destruct l as [|a l]; cbn.
  - now rewrite firstn_nil, Nat.sub_0_r.
  - reflexivity.
Qed.
Lemma reads_into p : Forall wf_cp p -> exists b, cats put_cp p = Some b /\
  forall old, reads (get_into (resize cp0 (length p) old)) b (overs old p).
Proof.
  induction 1 as [|c p Hc Hp IH].
  - exists []. split; [reflexivity|]. intro old. unfold resize. cbn. apply reads_ret.
  - destruct IH as (b & E & R). destruct (reads_cp c Hc) as (bc & Ec & _ & Rc).
    exists (bc ++ b). cbn [cats fold_right]. fold (cats put_cp p). rewrite E, Ec.
    split; [reflexivity|]. intro old. cbn [length]. rewrite resize_S. cbn [get_into overs].
    apply reads_bind with (over (hd cp0 old) c); [apply Rc|].
    apply (reads_map _ _ _ (fun r => over (hd cp0 old) c :: r)). apply R.
Qed.
Lemma reads_pool p : small p -> Forall wf_cp (tl p) -> exists b, put_pool p = Some b /\
  forall old, reads (get_pool old) b (over_pool old p).
Proof.
  intros Hs Hp. destruct (small_u2 _ _ Hs) as (E1 & E2 & E3).
  destruct (reads_into _ Hp) as (b & E & R).
  exists (put_u2 (len p) ++ b). unfold put_pool. rewrite E1, E2.
  replace (Z.to_nat (Z.of_N (len p)) - 1)%nat with (length (tl p))
    by (unfold len; destruct p; cbn [length tl]; lia).
  rewrite firstn_all, E. split; [reflexivity|].
  intro old. unfold get_pool. apply reads_bind with (len p); [now apply reads_u2|].
  rewrite E2. destruct (_ <? 0)%Z eqn:Ez; [apply Z.ltb_lt in Ez; lia|].
  replace (Z.to_nat (Z.of_N (len p))) with (length p) by (unfold len; lia).
  destruct p as [|z p].
  - cbn in E. injection E as <-. unfold resize. cbn. apply reads_ret.
  - cbn [length]. rewrite resize_S. cbn [tl over_pool] in *.
    apply (reads_map _ _ _ (fun r => hd cp0 old :: r)). apply R.
Qed.

(** vectors *)
Definition codec {A} (f : A -> option (list ascii)) (g : rd A) (x : A) : Prop :=
  exists b, f x = Some b /\ (1 <= length b)%nat /\ reads g b x.
Lemma cats_app A (f : A -> option (list ascii)) x l :
  cats f (x :: l) = cat (f x) (cats f l).
Proof. reflexivity. Qed.
Lemma reads_seq A (f : A -> option (list ascii)) g l : Forall (codec f g) l ->
  exists b, cats f l = Some b /\ (length l <= length b)%nat /\
    forall fuel, (length l <= fuel)%nat -> reads (get_seq g fuel (len l)) b l.
Proof.
  induction 1 as [|x l Hx Hl IH].
  - exists []. split; [reflexivity|]. split; [cbn; lia|]. intros fuel _ rest. destruct fuel; reflexivity.
  - destruct IH as (b & E & L & R). destruct Hx as (bx & Ex & Lx & Rx).
    exists (bx ++ b). rewrite cats_app, Ex, E. split; [reflexivity|]. split.
    + rewrite app_length. cbn [length]. lia.
    + intros fuel Hf. cbn [length] in Hf. destruct fuel as [|fuel]; [lia|].
      cbn [get_seq]. rewrite len_cons.
      destruct (_ =? 0)%N eqn:Ez; [apply N.eqb_eq in Ez; lia|].
      replace (1 + len l - 1)%N with (len l) by lia.
      apply reads_bind with x; [exact Rx|].
      apply (reads_map _ _ _ (fun r => x :: r)). apply R. lia.
Qed.
Lemma reads_vec A (f : A -> option (list ascii)) g l :
  small l -> Forall (codec f g) l ->
  exists b, put_vec f l = Some (le 8 (len l) ++ b) /\ cats f l = Some b /\
    reads (get_vec g) (le 8 (len l) ++ b) l.
Proof.
  intros Hs Hl. destruct (reads_seq _ f g l Hl) as (b & E & L & R).
  destruct (small_u2 _ _ Hs) as (E1 & E2 & E3). exists b.
  unfold put_vec. rewrite E1, E2, size_of_nat_short, E by exact Hs.
  split; [reflexivity|]. split; [reflexivity|].
  unfold get_vec. apply reads_bind with (len l).
  - intro rest. unfold bind. rewrite (reads_raw (le 8 (len l)) 8) by now rewrite le_len.
    unfold ret. rewrite unle_le; [reflexivity|].
    change (256 ^ N.of_nat 8)%N with 18446744073709551616%N.
    unfold small in Hs. change (2 ^ 15)%N with 32768%N in Hs. lia.
  - intro rest. apply R. rewrite app_length. lia.
Qed.
Lemma put_u2_length v : length (put_u2 v) = 2%nat.
Proof. reflexivity. Qed.
Lemma codec_u2 v : w2 v -> codec (fun v => Some (put_u2 v)) get_u2 v.
Proof. intro H. exists (put_u2 v). split; [reflexivity|]. split; [cbn; lia|]. now apply reads_u2. Qed.
Lemma codec_at a : wf_at a -> codec put_at get_at a.
Proof.
  destruct a as [n i]. intros [H1 H2]; cbn [attribute_name_index ainfo] in *.
  eexists. unfold put_at; cbn [attribute_name_index ainfo]. split; [reflexivity|].
  split; [cbn; lia|]. rewrite N.mod_small by exact H2. unfold get_at.
  apply reads_bind with n; [now apply reads_u2|].
  apply reads_bind with (len i); [now apply reads_u4|].
  apply (reads_map _ _ _ (fun i => At n i)). now apply reads_raw.
Qed.
Lemma Forall_codec A (P : A -> Prop) f g l :
  (forall x, P x -> codec f g x) -> Forall P l -> Forall (codec f g) l.
Proof. intros H. apply Forall_impl. exact H. Qed.
Lemma codec_mem m : wf_mem m -> codec put_mem get_mem m.
Proof.
  destruct m as [a n d l]. intros (Ha & Hn & Hd & Hs & Hl).
  cbn [access_flags name_index descriptor_index mattributes] in *.
  destruct (reads_vec _ put_at get_at l Hs (Forall_codec _ _ _ _ _ codec_at Hl)) as (b & E & _ & R).
  unfold codec, put_mem. cbn [access_flags name_index descriptor_index mattributes].
  rewrite E. eexists. split; [reflexivity|]. split; [cbn; lia|].
  rewrite <- !app_assoc. unfold get_mem.
  apply reads_bind with a; [now apply reads_u2|].
  apply reads_bind with n; [now apply reads_u2|].
  apply reads_bind with d; [now apply reads_u2|].
  now apply (reads_map _ _ _ (fun l => Mi a n d l)).
Qed.

Definition with_pool (c : class_file) (p : list cp_info) : class_file :=
  Cf (magic c) (minor_version c) (major_version c) p (cflags c) (this_class c)
     (super_class c) (interfaces c) (fields c) (methods c) (attributes c).
Lemma reads_class c : wf_class c -> exists b, put_class c = Some b /\
  forall old, reads (get_class old) b (with_pool c (over_pool old (constant_pool c))).
Proof.
  destruct c as [m mi ma p f t s i fs ms a].
  unfold wf_class, with_pool;
    cbn [magic minor_version major_version constant_pool cflags this_class super_class
         interfaces fields methods attributes].
  intros (Hm & Hmi & Hma & (Hp1 & Hp2) & Hf & Ht & Hs & (Hi1 & Hi2) & (Hf1 & Hf2) &
          (Hm1 & Hm2) & Ha1 & Ha2).
  destruct (reads_pool p Hp1 Hp2) as (bp & Ep & Rp).
  destruct (reads_vec _ _ _ i Hi1 (Forall_codec _ _ _ _ _ codec_u2 Hi2)) as (bi & Ei & _ & Ri).
  destruct (reads_vec _ _ _ fs Hf1 (Forall_codec _ _ _ _ _ codec_mem Hf2)) as (bf & Ef & _ & Rf).
  destruct (reads_vec _ _ _ ms Hm1 (Forall_codec _ _ _ _ _ codec_mem Hm2)) as (bm & Em & _ & Rm).
  destruct (reads_vec _ _ _ a Ha1 (Forall_codec _ _ _ _ _ codec_at Ha2)) as (ba & Ea & _ & Ra).
  unfold put_class.
  cbn [magic minor_version major_version constant_pool cflags this_class super_class
         interfaces fields methods attributes].
  rewrite Ep, Ei, Ef, Em, Ea. eexists. split; [reflexivity|].
  intro old. rewrite <- ?app_assoc. unfold get_class.
  apply reads_bind with m; [now apply reads_u4|].
  apply reads_bind with mi; [now apply reads_u2|].
  apply reads_bind with ma; [now apply reads_u2|].
  apply reads_bind with (over_pool old p); [apply Rp|].
  apply reads_bind with f; [now apply reads_u2|].
  apply reads_bind with t; [now apply reads_u2|].
  apply reads_bind with s; [now apply reads_u2|].
  rewrite app_assoc. apply reads_bind with i; [exact Ri|].
  rewrite app_assoc. apply reads_bind with fs; [exact Rf|].
  rewrite app_assoc. apply reads_bind with ms; [exact Rm|].
  apply (reads_map _ _ _ (fun a => Cf m mi ma _ f t s i fs ms a)). exact Ra.
Qed.

(** Packing a class file whose counts and string lengths are below 2^15 and whose
    constants all have a known tag, and unpacking the bytes into any object, restores
    everything except element 0 of the pool, which keeps what the object had there. *)
Theorem C56_round_trip : forall c, wf_class c -> Forall known (tl (constant_pool c)) ->
  exists b, put_class c = Some b /\
  forall old rest, exists c', get_class old (b ++ rest) = Ok c' rest /\
    c' = with_pool c (constant_pool c') /\
    length (constant_pool c') = length (constant_pool c) /\
    tl (constant_pool c') = tl (constant_pool c).
Proof.
  intros c Hc Hk. destruct (reads_class c Hc) as (b & E & R). exists b. split; [exact E|].
  intros old rest. eexists. split; [apply R|]. split; [reflexivity|].
  cbn [with_pool constant_pool]. unfold over_pool.
  destruct (constant_pool c) as [|z p]; [split; reflexivity|]. cbn [tl length] in *.
  assert (H : overs (tl old) p = p).
  { generalize (tl old). clear - Hk. induction Hk as [|c p Hc _ IH]; intro o; [reflexivity|].
    cbn [overs]. rewrite IH. f_equal. unfold known in Hc. unfold over.
    destruct (kind_of (tag c)); [contradiction|reflexivity..]. }
  rewrite H. split; reflexivity.
Qed.
Definition class_ex : class_file :=
  Cf 3405691582 0 50
    [cp0; Cp 7 (PU2 2); Cp 1 (PStr (bs "Foo")); Cp 12 (PNT 2 2); Cp 10 (PRef 1 3); Cp 5 (PU8 7)]
    33 1 1 [1%N] [Mi 2 2 2 []] [Mi 1 2 2 [At 2 (bs "xyz")]] [At 2 []].
Ltac wf_ex :=
  unfold wf_class, wf_mem, wf_at, wf_cp, w2, small, len; cbn;
  repeat match goal with
         | |- _ /\ _ => split
         | |- Forall _ _ => constructor; cbn
         | |- True => exact Logic.I
         end; try reflexivity.
Example C56_round_trip_ex : wf_class class_ex /\ Forall known (tl (constant_pool class_ex)) /\
  exists b, put_class class_ex = Some b /\ get_class [cp0] b = Ok class_ex [].
Proof.
  split; [wf_ex|]. split; [repeat constructor; discriminate|].
  eexists. split; [vm_compute; reflexivity|vm_compute; reflexivity].
Qed.
Print Assumptions C56_round_trip.

(** ** The format *)
(** The part of the file before the first vector agrees with the class file format,
    provided no constant is a long or a double. *)
Lemma put_cp_f c : wf_cp c -> known c -> put_cp c = Some (f_cp c).
Proof.
  destruct c as [t i]. unfold wf_cp, known, put_cp, f_cp; cbn [tag info].
  intros [Ht H] K. destruct (kind_of t); [contradiction|..]; destruct i; try contradiction;
    unfold put_u2, put_u4, put_u8; rewrite ?put_be_be; try reflexivity.
  destruct (reads_str s H) as [E _]. rewrite E. cbn [option_map]. unfold put_u2.
  now rewrite put_be_be.
Qed.
Lemma cats_f A (f : A -> option (list ascii)) h l :
  (forall x, In x l -> f x = Some (h x)) -> cats f l = Some (flat_map h l).
Proof.
  induction l as [|x l IH]; intro H; [reflexivity|].
  rewrite cats_app, H by (now left). rewrite IH by (intros; apply H; now right). reflexivity.
Qed.
Lemma put_pool_f p : small p -> Forall wf_cp (tl p) -> Forall known (tl p) ->
  put_pool p = Some (be 2 (len p) ++ flat_map f_cp (tl p)).
Proof.
  intros Hs Hw Hk. destruct (small_u2 _ _ Hs) as (E1 & E2 & E3).
  unfold put_pool. rewrite E1, E2.
  replace (Z.to_nat (Z.of_N (len p)) - 1)%nat with (length (tl p))
    by (unfold len; destruct p; cbn [length tl]; lia).
  rewrite firstn_all, (cats_f _ _ f_cp).
  - cbn [cat]. unfold put_u2. now rewrite put_be_be.
  - intros x Hx. rewrite Forall_forall in Hw, Hk. apply put_cp_f; auto.
Qed.
Theorem C56_head : forall c, wf_class c -> Forall known (tl (constant_pool c)) ->
  total wide (tl (constant_pool c)) = 0%N ->
  exists vectors, put_class c = Some
    (be 4 (magic c) ++ be 2 (minor_version c) ++ be 2 (major_version c) ++
     f_pool (constant_pool c) ++ be 2 (cflags c) ++ be 2 (this_class c) ++
     be 2 (super_class c) ++ vectors).
Proof.
  intros c Hc Hk Hw. destruct (reads_class c Hc) as (b & E & _).
  unfold put_class in *. destruct Hc as (_ & _ & _ & (Hp1 & Hp2) & _).
  rewrite put_pool_f in * by assumption.
  destruct (cat (put_vec _ (interfaces c)) _) as [v|] eqn:Ev; [|discriminate].
  exists v. cbn [cat]. unfold f_pool. rewrite Hw, N.add_0_r.
  unfold put_u2, put_u4. rewrite !put_be_be, <- !app_assoc. reflexivity.
Qed.
Definition class_ex2 : class_file :=
  with_pool class_ex [cp0; Cp 7 (PU2 2); Cp 1 (PStr (bs "Foo")); Cp 4 (PU4 9)].
Example C56_head_ex : wf_class class_ex2 /\ Forall known (tl (constant_pool class_ex2)) /\
  total wide (tl (constant_pool class_ex2)) = 0%N.
Proof. split; [wf_ex|]. split; [repeat constructor; discriminate|reflexivity]. Qed.
Print Assumptions C56_head.

(** The counts of the vectors take eight bytes instead of two, so that the output is
    longer than the class file by six bytes for each of them: it never is in the class
    file format. *)
Lemma cats_len A (f : A -> option (list ascii)) (h : A -> list ascii) k l b :
  (forall x bx, In x l -> f x = Some bx -> len bx = len (h x) + k)%N ->
  cats f l = Some b -> len b = (len (flat_map h l) + k * len l)%N.
Proof.
  revert b. induction l as [|x l IH]; intros b H E.
  - cbn in E. injection E as <-. cbn [flat_map]. rewrite !len_nil. lia.
  - rewrite cats_app in E. destruct (f x) as [bx|] eqn:Ex; [|discriminate].
    destruct (cats f l) as [bl|] eqn:El; [|discriminate]. cbn [cat] in E.
    injection E as <-. cbn [flat_map]. rewrite !len_app, len_cons.
    rewrite (H x bx), (IH bl); [nia|..]; auto.
    + intros y by_ Hy. apply H. now right.
    + now left.
Qed.
Lemma vec_len A (f : A -> option (list ascii)) h k l b :
  (forall x bx, In x l -> f x = Some bx -> len bx = len (h x) + k)%N ->
  put_vec f l = Some b -> len b = (len (f_vec h l) + 6 + k * len l)%N.
Proof.
  unfold put_vec, f_vec. intros H E.
  destruct (cats f l) as [bl|] eqn:El; [|discriminate]. cbn [cat] in E.
  assert (b = le 8 (size_of_short (short_of (to_u2 (len l)))) ++ bl) by congruence. subst b.
  rewrite !len_app, be_len, le_len. rewrite (cats_len _ f h k l bl H El). lia.
Qed.
Lemma at_len a b : put_at a = Some b -> len b = (len (f_at a) + 0)%N.
Proof.
  intro E. assert (b = put_u2 (attribute_name_index a) ++ put_u4 (len (ainfo a) mod 2 ^ 32) ++ ainfo a)
    by (unfold put_at in E; congruence). subst b.
  unfold f_at, put_u2, put_u4. rewrite !put_be_be, !len_app, !be_len. lia.
Qed.
Lemma mem_len m b : put_mem m = Some b -> len b = (len (f_mem m) + 6)%N.
Proof.
  unfold put_mem. intro E. destruct (put_vec put_at (mattributes m)) as [v|] eqn:Ev; [|discriminate].
  assert (b = (put_u2 (access_flags m) ++ put_u2 (name_index m) ++ put_u2 (descriptor_index m)) ++ v)
    by (cbn [cat] in E; congruence). subst b.
  unfold f_mem, put_u2. rewrite !put_be_be, !len_app, !be_len.
  rewrite (vec_len _ put_at f_at 0 _ v (fun x bx _ => at_len x bx) Ev). lia.
Qed.
Theorem C56_format : forall c b, wf_class c -> Forall known (tl (constant_pool c)) ->
  put_class c = Some b ->
  len b = (len (f_class c) + 6 * (4 + len (fields c) + len (methods c)))%N.
Proof.
  intros c b Hc Hk E. destruct Hc as (_ & _ & _ & (Hp1 & Hp2) & _).
  unfold put_class in E. rewrite put_pool_f in E by assumption.
  destruct (put_vec _ (interfaces c)) as [vi|] eqn:Ei; [|discriminate].
  destruct (put_vec _ (fields c)) as [vf|] eqn:Ef; [|discriminate].
  destruct (put_vec _ (methods c)) as [vm|] eqn:Em; [|discriminate].
  destruct (put_vec _ (attributes c)) as [va|] eqn:Ea; [|discriminate].
  cbn [cat] in E. apply (f_equal (fun o => match o with Some l => len l | None => 0%N end)) in E.
  rewrite <- E. unfold put_u2, put_u4.
  rewrite !put_be_be. unfold f_class, f_pool. rewrite !len_app, !be_len.
  assert (H2 : forall x bx, In x (interfaces c) -> Some (put_u2 x) = Some bx ->
    len bx = (len (be 2 x) + 0)%N).
  { intros x bx _ Hx. assert (bx = put_u2 x) by congruence. subst bx.
    unfold put_u2. rewrite put_be_be. lia. }
  rewrite (vec_len _ _ (be 2) 0 _ vi H2 Ei).
  rewrite (vec_len _ _ f_mem 6 _ vf (fun x bx _ => mem_len x bx) Ef).
  rewrite (vec_len _ _ f_mem 6 _ vm (fun x bx _ => mem_len x bx) Em).
  rewrite (vec_len _ _ f_at 0 _ va (fun x bx _ => at_len x bx) Ea).
  lia.
Qed.
Example C56_format_ex : exists b, put_class class_ex = Some b /\ len b = 121%N /\
  len (f_class class_ex) = 85%N.
Proof. eexists. split; [vm_compute; reflexivity|]. split; vm_compute; reflexivity. Qed.
Print Assumptions C56_format.
(** hence the file written for an empty class is not the one the format prescribes *)
Theorem C56_counts_refuted : exists c b, wf_class c /\ put_class c = Some b /\
  f_class c <> b /\ interfaces c = [] /\ fields c = [] /\ methods c = [] /\
  b = firstn 16 (f_class c) ++ repeat (ascii_of_N 0) 32.
Proof.
  exists class0. eexists. split; [wf_ex|]. split; [vm_compute; reflexivity|].
  split; [vm_compute; discriminate|]. repeat split.
Qed.
Print Assumptions C56_counts_refuted.
(** and a file in the class file format is misread: here the count of the interfaces and
    the following counts are taken for one number *)
Theorem C56_foreign_refuted : exists c, wf_class c /\
  match get_class [cp0] (f_class c) with Throw PackError _ => True | _ => False end.
Proof. exists class_ex2. split; [wf_ex|]. vm_compute. exact Logic.I. Qed.
Print Assumptions C56_foreign_refuted.
(** A long constant is counted once, so the pool is not in the class file format either,
    and the pool of a class file with a long constant is read one entry too far. *)
Theorem C56_long_refuted : exists p b, small p /\ Forall wf_cp (tl p) /\ Forall known (tl p) /\
  put_pool p = Some b /\ b <> f_pool p /\
  get_pool [cp0] (f_pool p ++ be 2 33) = Ok (p ++ [cp0]) [ascii_of_N 33].
Proof.
  exists [cp0; Cp 5 (PU8 7)]. eexists. split; [reflexivity|]. split; [wf_ex|].
  split; [repeat constructor; discriminate|]. split; [vm_compute; reflexivity|].
  split; [vm_compute; discriminate|vm_compute; reflexivity].
Qed.
Print Assumptions C56_long_refuted.
(** A constant with a tag the reader does not know is lost, and the entry keeps what the
    object read into had at this place. *)
Theorem C56_stale_refuted : exists p b, small p /\ Forall wf_cp (tl p) /\
  put_pool p = Some b /\
  get_pool [cp0; Cp 7 (PU2 9)] b = Ok [cp0; Cp 7 (PU2 9)] [] /\
  get_pool [cp0] b = Ok [cp0; cp0] [] /\
  nth 1 p cp0 = Cp 15 PNone.
Proof.
  exists [cp0; Cp 15 PNone]. eexists. split; [reflexivity|]. split; [wf_ex|].
  split; [vm_compute; reflexivity|]. split; [vm_compute; reflexivity|].
  split; vm_compute; reflexivity.
Qed.
Print Assumptions C56_stale_refuted.

(** ** Counts from 2^15 on *)
Definition large (n : N) := (2 ^ 15 <= n < 2 ^ 16)%N.
Lemma large_u2 n : large n -> to_u2 n = n /\ short_of n = (Z.of_N n - 2 ^ 16)%Z /\ w2 n.
Proof.
  unfold large, to_u2, short_of, w2.
  change (2 ^ 15)%N with 32768%N. change (2 ^ 16)%N with 65536%N. intro H.
  repeat split.
  - apply N.mod_small. lia.
  - destruct (_ <? _)%N eqn:E; [apply N.ltb_lt in E; lia|reflexivity].
  - lia.
Qed.
(** A pool of this size is written without its entries, and what was written cannot be
    read back. *)
Theorem C56_pool_large : forall p rest, large (len p) ->
  put_pool p = Some (be 2 (len p)) /\
  forall old, get_pool old (be 2 (len p) ++ rest) = Throw LengthError rest.
Proof.
  intros p rest H. destruct (large_u2 _ H) as (E1 & E2 & E3). unfold large in H.
  change (2 ^ 15)%N with 32768%N in H. change (2 ^ 16)%N with 65536%N in H.
  change (2 ^ 16)%Z with 65536%Z in E2. split.
  - unfold put_pool. rewrite E1, E2.
    replace (Z.to_nat (Z.of_N (len p) - 65536) - 1)%nat with 0%nat by lia.
    cbn [firstn cats fold_right cat]. unfold put_u2. rewrite put_be_be, app_nil_r. reflexivity.
  - intro old. unfold get_pool, bind at 1.
    pose proof (reads_u2 _ E3 rest) as R. unfold put_u2 in R. rewrite put_be_be in R.
    rewrite R, E2. destruct (_ <? 0)%Z eqn:E; [reflexivity|]. apply Z.ltb_ge in E. lia.
Qed.
Example C56_pool_large_ex : large (len (repeat cp0 (N.to_nat 32768))).
Proof. rewrite len_repeat, Nnat.N2Nat.id. split; vm_compute; congruence. Qed.
Print Assumptions C56_pool_large.
(** A string of this length cannot be written, and one in a file cannot be read. *)
Theorem C56_string_large : forall s rest, large (len s) ->
  put_str s = None /\ get_str (be 2 (len s) ++ rest) = Throw LengthError rest.
Proof.
  intros p rest H. destruct (large_u2 _ H) as (E1 & E2 & E3). unfold large in H.
  change (2 ^ 15)%N with 32768%N in H. change (2 ^ 16)%N with 65536%N in H.
  change (2 ^ 16)%Z with 65536%Z in E2.
  assert (E : (short_of (len p) <? 0)%Z = true) by (apply Z.ltb_lt; lia). split.
  - unfold put_str. now rewrite E1, E.
  - unfold get_str, bind at 1.
    pose proof (reads_u2 _ E3 rest) as R. unfold put_u2 in R. rewrite put_be_be in R.
    now rewrite R, E.
Qed.
Example C56_string_large_ex : large (len (repeat (ascii_of_N 65) (N.to_nat 32768))).
Proof. rewrite len_repeat, Nnat.N2Nat.id. split; vm_compute; congruence. Qed.
Print Assumptions C56_string_large.
(** A vector of this size is written with a count above 2^63 and cannot be read back from
    any buffer that fits in memory. *)
Definition consumes {A} (g : rd A) : Prop :=
  forall l x l', g l = Ok x l' -> (1 + len l' <= len l)%N.
Definition shrinks {A} (g : rd A) : Prop :=
  forall l x l', g l = Ok x l' -> (len l' <= len l)%N.
Lemma consumes_bind A B (g : rd A) (h : A -> rd B) :
  consumes g -> (forall x, shrinks (h x)) -> consumes (bind g h).
Proof.
  intros Hg Hh l x l' E. unfold bind in E. destruct (g l) as [y l1| |] eqn:Eg; try discriminate.
  specialize (Hg _ _ _ Eg). specialize (Hh _ _ _ _ E). lia.
Qed.
Lemma shrinks_bind A B (g : rd A) (h : A -> rd B) :
  shrinks g -> (forall x, shrinks (h x)) -> shrinks (bind g h).
Proof.
  intros Hg Hh l x l' E. unfold bind in E. destruct (g l) as [y l1| |] eqn:Eg; try discriminate.
  specialize (Hg _ _ _ Eg). specialize (Hh _ _ _ _ E). lia.
Qed.
Lemma shrinks_ret A (x : A) : shrinks (ret x).
Proof. intros l y l' E. injection E as _ <-. lia. Qed.
Lemma consumes_get1 : consumes get1.
Proof. intros [|c l] x l' E; [discriminate|]. injection E as _ <-. rewrite len_cons. lia. Qed.
Lemma consumes_shrinks A (g : rd A) : consumes g -> shrinks g.
Proof. intros H l x l' E. specialize (H _ _ _ E). lia. Qed.
Lemma shrinks_be w k a : shrinks (get_be w k a).
Proof.
  revert a; induction k as [|k IH]; intro a; [apply shrinks_ret|].
  cbn [get_be]. apply shrinks_bind; [apply consumes_shrinks, consumes_get1|]. intro. apply IH.
Qed.
Lemma consumes_u2 : consumes get_u2.
Proof.
  apply consumes_bind; [apply consumes_get1|]. intro x.
  exact (shrinks_be 16 1 (N.lor (N.shiftl 0 8 mod 2 ^ 16) (N.land 255 x))).
Qed.
Lemma shrinks_raw n : shrinks (getraw n).
Proof.
  intros l x l' E. unfold getraw in E. destruct (_ <? _)%N; [discriminate|].
  injection E as _ <-. rewrite len_skipn. lia.
Qed.
Lemma seq_len A (g : rd A) : consumes g -> forall fuel n l xs l',
  get_seq g fuel n l = Ok xs l' -> (n + len l' <= len l)%N /\ len xs = n.
Proof.
  intros Hg. induction fuel as [|fuel IH]; intros n l xs l' E; cbn [get_seq] in E;
    destruct (N.eqb_spec n 0) as [->|Hn].
  1,3: injection E as <- <-; split; [lia|reflexivity].
  - discriminate.
  - unfold bind in E. destruct (g l) as [y l1| |] eqn:Eg; try discriminate.
    destruct (get_seq g fuel (n - 1) l1) as [r l2| |] eqn:Er; try discriminate.
    injection E as <- <-. specialize (Hg _ _ _ Eg). destruct (IH _ _ _ _ Er) as [H1 H2].
    rewrite len_cons. split; lia.
Qed.
Lemma shrinks_vec A (g : rd A) : consumes g -> shrinks (get_vec g).
Proof.
  intro Hg. apply shrinks_bind.
  - apply shrinks_bind; [apply shrinks_raw|]. intro. apply shrinks_ret.
  - intros n l x l' E. destruct (seq_len _ _ Hg _ _ _ _ _ E). lia.
Qed.
Lemma consumes_at : consumes get_at.
Proof.
  apply consumes_bind; [apply consumes_u2|]. intro. apply shrinks_bind; [apply shrinks_be|].
  intro. apply shrinks_bind; [apply shrinks_raw|]. intro. apply shrinks_ret.
Qed.
Lemma consumes_mem : consumes get_mem.
Proof.
  apply consumes_bind; [apply consumes_u2|]. intro.
  apply shrinks_bind; [apply shrinks_be|]. intro. apply shrinks_bind; [apply shrinks_be|].
  intro. apply shrinks_bind; [apply shrinks_vec, consumes_at|]. intro. apply shrinks_ret.
Qed.
Lemma vec_large A (f : A -> option (list ascii)) (g : rd A) l b rest : consumes g ->
  large (len l) -> put_vec f l = Some b -> (len (b ++ rest) < 2 ^ 63)%N ->
  match get_vec g (b ++ rest) with Ok _ _ => False | _ => True end.
Proof.
  intros Hg H E Hl. destruct (get_vec g (b ++ rest)) as [x l'| |] eqn:Er; try exact Logic.I.
  destruct (large_u2 _ H) as (E1 & E2 & E3). unfold large in H.
  change (2 ^ 15)%N with 32768%N in H. change (2 ^ 16)%N with 65536%N in H.
  change (2 ^ 16)%Z with 65536%Z in E2.
  unfold put_vec in E. destruct (cats f l) as [bl|]; [|discriminate]. cbn [cat] in E.
  set (n := size_of_short (short_of (to_u2 (len l)))) in *.
  assert (Hn : (2 ^ 63 <= n < 2 ^ 64)%N).
  { unfold n, size_of_short. rewrite E1, E2. change (2 ^ 63)%N with 9223372036854775808%N.
    change (2 ^ 64)%Z with 18446744073709551616%Z.
    change (2 ^ 64)%N with 18446744073709551616%N.
    replace ((Z.of_N (len l) - 65536) mod 18446744073709551616)%Z
      with (Z.of_N (len l) - 65536 + 18446744073709551616)%Z; [lia|].
    rewrite <- (Z.mod_add _ 1) by lia. rewrite Z.mod_small by lia. lia. }
  assert (b = le 8 n ++ bl) by congruence. subst b. rewrite <- app_assoc in *.
  unfold get_vec, bind in Er. rewrite (reads_raw (le 8 n) 8) in Er by now rewrite le_len.
  unfold ret in Er. rewrite unle_le in Er by (change (256 ^ N.of_nat 8)%N with (2 ^ 64)%N; lia).
  destruct (seq_len _ _ Hg _ _ _ _ _ Er) as [H1 _].
  rewrite (len_app _ (le 8 n)) in Hl. lia.
Qed.
Theorem C56_vector_large : forall b rest, (len (b ++ rest) < 2 ^ 63)%N ->
  (forall l, large (len l) -> put_vec (fun v => Some (put_u2 v)) l = Some b ->
     match get_vec get_u2 (b ++ rest) with Ok _ _ => False | _ => True end) /\
  (forall l, large (len l) -> put_vec put_mem l = Some b ->
     match get_vec get_mem (b ++ rest) with Ok _ _ => False | _ => True end) /\
  (forall l, large (len l) -> put_vec put_at l = Some b ->
     match get_vec get_at (b ++ rest) with Ok _ _ => False | _ => True end).
Proof.
  intros b rest Hl. split; [|split]; intros l H E; eapply vec_large; eauto using
    consumes_u2, consumes_mem, consumes_at.
Qed.
Lemma large_len : len (repeat 1%N (N.to_nat 32768)) = 32768%N.
Proof. rewrite len_repeat. apply Nnat.N2Nat.id. Qed.
Example C56_vector_large_ex : exists l b,
  put_vec (fun v => Some (put_u2 v)) l = Some b /\
  large (len l) /\ (len (b ++ []) < 2 ^ 63)%N.
Proof.
  exists (repeat 1%N (N.to_nat 32768)). unfold put_vec.
  rewrite (cats_f _ _ put_u2) by reflexivity. eexists. split; [reflexivity|].
  split; [rewrite large_len; split; vm_compute; congruence|].
  assert (H : forall l, len (flat_map put_u2 l) = (2 * len l)%N).
  { induction l as [|x l IH]; [reflexivity|]. cbn [flat_map]. rewrite len_app, len_cons, IH.
    unfold len at 1. rewrite put_u2_length. lia. }
  rewrite app_nil_r, len_app, le_len, H, large_len. reflexivity.
Qed.
Print Assumptions C56_vector_large.

(** ** Adding methods (C67) *)
(** Every method added to a class refers to the pool entries holding its name and its
    descriptor, whatever was added before and is added later. *)
Definition names (c : class_file) (m : member_info) : option (list ascii * list ascii) :=
  match nth_error (constant_pool c) (N.to_nat (name_index m)),
        nth_error (constant_pool c) (N.to_nat (descriptor_index m)) with
  | Some (Cp 1%N (PStr n)), Some (Cp 1%N (PStr d)) => Some (n, d)
  | _, _ => None
  end.
Definition add_methods (l : list (list ascii * list ascii)) (c : class_file) : class_file :=
  fold_left (fun c nd => add_method (fst nd) (snd nd) c) l c.
Lemma add_methods_spec l : forall c,
  (len (constant_pool c) + 2 * len l <= 2 ^ 16)%N ->
  constant_pool (add_methods l c) =
    constant_pool c ++ flat_map (fun nd => [Cp 1 (PStr (fst nd)); Cp 1 (PStr (snd nd))]) l /\
  exists ms, methods (add_methods l c) = methods c ++ ms /\
    map (names (add_methods l c)) ms = map Some l.
Proof.
  induction l as [|nd l IH] using rev_ind; intros c H.
  - cbn. split; [now rewrite app_nil_r|]. exists []. now rewrite app_nil_r.
  - rewrite len_app, len_cons, len_nil in H. destruct (IH c ltac:(lia)) as (E1 & ms & E2 & E3).
    unfold add_methods in *. rewrite fold_left_app. cbn [fold_left].
    set (c1 := fold_left _ l c) in *. unfold add_method; cbn [constant_pool methods].
    split.
    + rewrite E1, flat_map_app. cbn [flat_map]. now rewrite <- !app_assoc.
    + eexists. split; [rewrite E2, <- app_assoc; reflexivity|].
      rewrite map_app, map_app. f_equal.
      * rewrite <- E3. apply map_ext_in. intros m Hm.
        assert (Hs : exists r, names c1 m = Some r).
        { assert (Hi : In (names c1 m) (map Some l)) by (rewrite <- E3; now apply in_map).
          apply in_map_iff in Hi. destruct Hi as (r & <- & _). now exists r. }
        destruct Hs as (r & Hs). revert Hs. unfold names. cbn [constant_pool].
        destruct (nth_error (constant_pool c1) (N.to_nat (name_index m))) eqn:X1; [|discriminate].
        destruct (nth_error (constant_pool c1) (N.to_nat (descriptor_index m))) eqn:X2;
          [|now destruct c0 as [[|[]] []]].
        rewrite <- app_assoc.
        rewrite (nth_error_app1 _ _ (proj1 (nth_error_Some _ _) ltac:(rewrite X1; discriminate))).
        rewrite (nth_error_app1 _ _ (proj1 (nth_error_Some _ _) ltac:(rewrite X2; discriminate))).
        now rewrite X1, X2.
      * assert (Hlen : len (constant_pool c1) = (len (constant_pool c) + 2 * len l)%N).
        { rewrite E1, len_app. f_equal. clear. induction l as [|x l IH]; [reflexivity|].
          cbn [flat_map app]. rewrite !len_cons. lia. }
        cbn [map]. f_equal. unfold names. cbn [constant_pool name_index descriptor_index].
        unfold to_u2. rewrite !len_app, len_cons, len_nil, !N.mod_small by lia.
        rewrite <- app_assoc. rewrite nth_error_app2 by (unfold len; lia).
        replace (N.to_nat (len (constant_pool c1)) - length (constant_pool c1))%nat with 0%nat
          by (unfold len; lia).
        destruct nd as [x y]. cbn [nth_error fst snd].
        rewrite nth_error_app2 by (unfold len; lia).
        replace (N.to_nat (len (constant_pool c1) + (1 + 0)) - length (constant_pool c1))%nat
          with 1%nat by (unfold len; lia). reflexivity.
Qed.
Theorem C67_methods : forall l c, (len (constant_pool c) + 2 * len l <= 2 ^ 16)%N ->
  exists ms, methods (add_methods l c) = methods c ++ ms /\
    map (names (add_methods l c)) ms = map Some l.
Proof. intros l c H. now apply add_methods_spec. Qed.
Example C67_methods_ex : (len (constant_pool class0) + 2 * len [(bs "f", bs "()V"); (bs "g", bs "(I)I")] <= 2 ^ 16)%N /\
  map (names (add_methods [(bs "f", bs "()V"); (bs "g", bs "(I)I")] class0))
    (methods (add_methods [(bs "f", bs "()V"); (bs "g", bs "(I)I")] class0)) =
  [Some (bs "f", bs "()V"); Some (bs "g", bs "(I)I")].
Proof. split; vm_compute; congruence. Qed.
Print Assumptions C67_methods.

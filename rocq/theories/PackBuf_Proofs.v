From Verif Require Import Base Base_Proofs PackBuf_Model PackBuf_Spec.
Ltac Zify.zify_post_hook ::= Z.div_mod_to_equations.

(** representation invariant *)
Definition inv (st : pack_buf) : Prop :=
  (pb_size st <= len (pb_mem st) /\ pb_size st < W /\ pb_pos st < W)%N.

Lemma realloc_len j m s : len (realloc_blk j m s) = s.
Proof.
  unfold realloc_blk. rewrite len_firstn, !len_app, len_repeat. lia.
Qed.
Lemma realloc_keep j m s n :
  (N.of_nat n <= len m)%N -> (N.of_nat n <= s)%N ->
  firstn n (realloc_blk j m s) = firstn n m.
Proof.
  intros H1 H2. unfold realloc_blk. rewrite firstn_firstn.
  replace (Nat.min n (N.to_nat s)) with n by lia.
  rewrite firstn_app. unfold len in H1.
  replace (n - length m)%nat with O by lia. cbn. apply app_nil_r.
Qed.
Lemma write_at_len m off x :
  (off + len x <= len m)%N -> len (write_at m off x) = len m.
Proof.
  intro H. unfold write_at. rewrite !len_app, len_firstn, len_skipn. lia.
Qed.
Lemma write_at_firstn m off x :
  (off + len x <= len m)%N ->
  firstn (N.to_nat (off + len x)) (write_at m off x) = firstn (N.to_nat off) m ++ x.
Proof.
  intro H. unfold write_at. rewrite app_assoc. apply firstn_app_l.
  rewrite app_length, firstn_length. unfold len in *. lia.
Qed.

Lemma pb_data_len st : (pb_size st <= len (pb_mem st))%N -> len (pb_data st) = pb_size st.
Proof. intro H. unfold pb_data. rewrite len_firstn. lia. Qed.

Lemma write_ok st x :
  inv st -> (pb_size st + len x < W)%N ->
  let sz' := ((pb_size st + len x) mod W)%N in
  let mem' := realloc_blk [] (pb_mem st) sz' in
  (sz' = pb_size st + len x)%N /\ (pb_size st + len x <=? len mem')%N = true /\
  let st' := mk_pb (write_at mem' (pb_size st) x) sz' (pb_pos st) in
  inv st' /\ pb_data st' = pb_data st ++ x.
Proof.
  intros (H1 & H2 & H3) Hx. cbn zeta.
  rewrite N.mod_small by exact Hx.
  split; [reflexivity|]. rewrite realloc_len. split; [lia|]. split.
  - unfold inv; cbn [pb_mem pb_size pb_pos].
    rewrite write_at_len; rewrite ?realloc_len; lia.
  - unfold pb_data; cbn [pb_mem pb_size pb_pos].
    rewrite write_at_firstn by (rewrite realloc_len; lia).
    now rewrite realloc_keep by lia.
Qed.

Lemma packraw_ok st x :
  inv st -> (pb_size st + len x < W)%N ->
  exists st', packraw x st = Ok tt st' /\ inv st' /\
              pb_data st' = pb_data st ++ x /\ pb_pos st' = pb_pos st.
Proof.
  intros Hi Hx. destruct (write_ok st x Hi Hx) as (E & B & I & D).
  unfold packraw. rewrite B. eexists. split; [reflexivity|]. auto.
Qed.
Lemma append_ok st x :
  inv st -> (0 < len x)%N -> (pb_size st + len x < W)%N ->
  exists st', append x st = Ok tt st' /\ inv st' /\
              pb_data st' = pb_data st ++ x /\ pb_pos st' = pb_pos st.
Proof.
  intros Hi H0 Hx. destruct (write_ok st x Hi Hx) as (E & B & I & D).
  unfold append. rewrite B. rewrite E in *.
  replace (pb_size st + len x =? 0)%N with false by lia.
  eexists. split; [reflexivity|]. auto.
Qed.

Lemma popoff_unpackraw s st : popoff s st = unpackraw s st.
Proof. unfold popoff, unpackraw. now rewrite (N.add_comm s). Qed.

Lemma unpackraw_ok st s :
  inv st -> (pb_pos st + s <= pb_size st)%N ->
  unpackraw s st = Ok (read_at (pb_data st) (pb_pos st) s)
                      (mk_pb (pb_mem st) (pb_size st) (pb_pos st + s)%N).
Proof.
  intros (H1 & H2 & H3) Hs. unfold unpackraw.
  rewrite (N.add_comm s). rewrite N.mod_small by lia.
  replace (pb_size st <? pb_pos st + s)%N with false by lia.
  replace (pb_pos st + s <=? len (pb_mem st))%N with true by lia.
  f_equal. unfold read_at, pb_data.
  rewrite skipn_firstn_comm, firstn_firstn. f_equal. lia.
Qed.
Lemma unpackraw_end st s :
  inv st -> (pb_pos st + s < W)%N -> (pb_size st < pb_pos st + s)%N ->
  unpackraw s st = Throw PackError st.
Proof.
  intros (H1 & H2 & H3) Hw Hs. unfold unpackraw.
  rewrite (N.add_comm s). rewrite N.mod_small by lia.
  now replace (pb_size st <? pb_pos st + s)%N with true by lia.
Qed.

Lemma read_at_split l off s :
  (off + s <= len l)%N ->
  exists pre post, l = pre ++ read_at l off s ++ post /\ len pre = off /\
                   len (read_at l off s) = s.
Proof.
  intro H. exists (firstn (N.to_nat off) l), (skipn (N.to_nat s) (skipn (N.to_nat off) l)).
  unfold read_at. rewrite firstn_skipn, firstn_skipn. split; [reflexivity|].
  rewrite !len_firstn, len_skipn. lia.
Qed.

Lemma addoff_ok n z : (0 <= Z.of_N n + z < Z.of_N W)%Z ->
  Z.of_N (addoff n z) = (Z.of_N n + z)%Z.
Proof. intro H. unfold addoff. rewrite Z.mod_small by lia. lia. Qed.

Lemma inv_pos st p : inv st -> (p < W)%N -> inv (mk_pb (pb_mem st) (pb_size st) p).
Proof. unfold inv; cbn; lia. Qed.

(** one guarded call: no UB, invariant kept, and the abstract queue makes the step *)
Lemma step_refines st o :
  inv st -> op_ok (q_of st) o ->
  exists r st', step st o = (r, Some st') /\ inv st' /\ q_step (q_of st) o r (q_of st').
Proof.
  intros Hi Ho. pose proof Hi as (H1 & H2 & H3).
  pose proof (pb_data_len st H1) as HL.
  assert (HU : forall s, (pb_pos st + s < W)%N ->
    (unpackraw s st = Ok (read_at (pb_data st) (pb_pos st) s)
              (mk_pb (pb_mem st) (pb_size st) (pb_pos st + s)%N)
       /\ (pb_pos st + s <= pb_size st)%N) \/
    (unpackraw s st = Throw PackError st /\ (pb_size st < pb_pos st + s)%N)).
  { intros s Hs. destruct (N.le_gt_cases (pb_pos st + s) (pb_size st)) as [L|L].
    - left. split; [now apply unpackraw_ok | exact L].
    - right. split; [now apply unpackraw_end | exact L]. }
  destruct o as [x|x|s|s| | |z|z| |s junk]; cbn [op_ok q_of q_bytes q_pos] in Ho;
    try rewrite HL in Ho; cbn [step].
  - destruct (packraw_ok st x Hi Ho) as (st' & E & I & D & P). rewrite E.
    eexists _, _. split; [reflexivity|]. split; [exact I|].
    unfold q_of. rewrite D, P. apply (QPack (mk_q (pb_data st) (pb_pos st))).
  - destruct Ho as [Ho0 Ho].
    destruct (append_ok st x Hi Ho0 Ho) as (st' & E & I & D & P). rewrite E.
    eexists _, _. split; [reflexivity|]. split; [exact I|].
    unfold q_of. rewrite D, P. apply (QAppend (mk_q (pb_data st) (pb_pos st))).
  - destruct (HU s Ho) as [[E L]|[E L]]; rewrite E; cbn [obs].
    + eexists _, _. split; [reflexivity|]. split; [apply inv_pos; auto|].
      destruct (read_at_split (pb_data st) (pb_pos st) s) as (pre & post & S1 & S2 & S3);
        [lia|].
      apply (QUnpack (q_of st) s _ pre post); auto.
    + eexists _, _. split; [reflexivity|]. split; [exact Hi|].
      apply QUnpackEnd. cbn [q_of q_bytes q_pos]. lia.
  - rewrite popoff_unpackraw. destruct (HU s Ho) as [[E L]|[E L]]; rewrite E; cbn [obs].
    + eexists _, _. split; [reflexivity|]. split; [apply inv_pos; auto|].
      destruct (read_at_split (pb_data st) (pb_pos st) s) as (pre & post & S1 & S2 & S3);
        [lia|].
      apply (QPopoff (q_of st) s _ pre post); auto.
    + eexists _, _. split; [reflexivity|]. split; [exact Hi|].
      apply QPopoffEnd. cbn [q_of q_bytes q_pos]. lia.
  - eexists _, _. split; [reflexivity|]. split; [unfold inv; cbn; pose proof W_pos; lia|].
    unfold q_of, pb_data; cbn [pb_mem pb_size pb_pos]. apply (QReseti (q_of st)).
  - eexists _, _. split; [reflexivity|]. split; [unfold inv; cbn; pose proof W_pos; lia|].
    apply (QReseto (q_of st)).
  - unfold seeki. replace (z <=? 0)%Z with true by lia. cbn [obs].
    assert (A : Z.of_N (addoff (pb_size st) z) = (Z.of_N (pb_size st) + z)%Z)
      by (apply addoff_ok; lia).
    eexists _, _. split; [reflexivity|]. split; [unfold inv; cbn; lia|].
    unfold q_of at 2; unfold pb_data; cbn [pb_mem pb_size pb_pos].
    eapply (QSeeki (q_of st) z _ (skipn (N.to_nat (addoff (pb_size st) z)) (pb_data st))).
    + cbn [q_of q_bytes]. rewrite <- (firstn_skipn (N.to_nat (addoff (pb_size st) z)) (pb_data st)) at 1.
      f_equal. unfold pb_data. rewrite firstn_firstn. f_equal. lia.
    + rewrite len_skipn, HL. lia.
  - unfold seeko. cbn [obs].
    assert (A : Z.of_N (addoff (pb_pos st) z) = (Z.of_N (pb_pos st) + z)%Z)
      by (apply addoff_ok; lia).
    eexists _, _. split; [reflexivity|]. split; [unfold inv; cbn; lia|].
    apply (QSeeko (q_of st)). exact A.
  - eexists _, _. split; [reflexivity|]. split; [unfold inv; cbn; pose proof W_pos; lia|].
    apply (QClear (q_of st)).
  - unfold resize. replace (s =? 0)%N with false by lia. cbn [obs].
    eexists _, _. split; [reflexivity|].
    split; [unfold inv; cbn [pb_mem pb_size pb_pos]; rewrite realloc_len; lia|].
    unfold q_of at 2; unfold pb_data; cbn [pb_mem pb_size pb_pos].
    set (M := realloc_blk junk (pb_mem st) s).
    assert (LM : len M = s) by apply realloc_len.
    assert (EM : firstn (N.to_nat s) M = M)
      by (apply firstn_all2; rewrite len_length; lia).
    rewrite EM.
    destruct (N.le_gt_cases s (pb_size st)) as [L|L].
    + replace M with (firstn (N.to_nat s) (pb_data st)).
      * eapply (QShrink (q_of st) s junk _ (skipn (N.to_nat s) (pb_data st))).
        -- symmetry; apply firstn_skipn.
        -- rewrite len_firstn. lia.
      * rewrite <- EM. unfold M. rewrite realloc_keep by lia.
        unfold pb_data. rewrite firstn_firstn. f_equal. lia.
    + replace M with (pb_data st ++ skipn (N.to_nat (pb_size st)) M).
      * apply (QGrow (q_of st) s junk). cbn [q_of q_bytes].
        rewrite len_app, len_skipn, HL, LM. lia.
      * rewrite <- (firstn_skipn (N.to_nat (pb_size st)) M) at 2. f_equal.
        unfold M. now rewrite realloc_keep by lia.
Qed.

Lemma run_refines os : forall st,
  inv st -> ops_ok st os ->
  exists rs st', run st os = (rs, Some st') /\ inv st' /\ q_run (q_of st) os rs (q_of st').
Proof.
  induction os as [|o os IH]; intros st Hi Ho.
  - exists [], st. repeat split; try apply Hi. constructor.
  - destruct Ho as [Ho1 Ho2].
    destruct (step_refines st o Hi Ho1) as (r & st1 & E & I1 & Q1).
    rewrite E in Ho2; cbn [snd] in Ho2.
    destruct (IH st1 I1 Ho2) as (rs & st2 & E2 & I2 & Q2).
    exists (r :: rs), st2. cbn [run]. rewrite E, E2.
    repeat split; try apply I2. econstructor; eauto.
Qed.

Lemma inv_new sz junk : (sz < W)%N -> inv (pb_new sz junk).
Proof. intro H. unfold inv, pb_new; cbn [pb_mem pb_size pb_pos]. rewrite realloc_len.
  pose proof W_pos. lia. Qed.
Lemma inv_empty : inv pb_empty.
Proof. apply inv_new. apply W_pos. Qed.

Lemma q_ops_ok_concrete os : forall st,
  inv st -> q_ops_ok (q_of st) os -> ops_ok st os.
Proof.
  induction os as [|o os IH]; intros st Hi H; [exact I|]. cbn [ops_ok].
  assert (Ho : op_ok (q_of st) o)
    by (apply (H [] o os [] (q_of st)); [reflexivity|constructor]).
  split; [exact Ho|].
  destruct (step_refines st o Hi Ho) as (r & st1 & E & I1 & Q1). rewrite E; cbn [snd].
  apply IH; [exact I1|].
  intros os1 o2 os2 rs q' Eos Hr. apply (H (o :: os1) o2 os2 (r :: rs) q').
  - now rewrite Eos.
  - econstructor; eauto.
Qed.

Lemma run_refines_q st os :
  inv st -> q_ops_ok (q_of st) os ->
  exists rs st', run st os = (rs, Some st') /\ inv st' /\ q_run (q_of st) os rs (q_of st').
Proof. intros Hi H. apply run_refines; [exact Hi|]. now apply q_ops_ok_concrete. Qed.

(** ** FIFO *)
Lemma read_at_app l p s :
  (p + s <= len l)%N ->
  firstn (N.to_nat p) l ++ read_at l p s = firstn (N.to_nat (p + s)) l.
Proof.
  intro H. unfold read_at.
  rewrite <- (firstn_skipn (N.to_nat p) (firstn (N.to_nat (p + s)) l)).
  rewrite firstn_firstn. f_equal.
  - f_equal. lia.
  - rewrite skipn_firstn_comm. f_equal. lia.
Qed.

Lemma fifo_gen T os : (T < W)%N -> forall st,
  inv st -> (pb_pos st <= pb_size st)%N ->
  forallb is_pack_or_unpack os = true -> forallb (sane_size T) os = true ->
  (pb_size st + len (packed_bytes os) <= T)%N ->
  exists rs st', run st os = (rs, Some st') /\ inv st' /\
    pb_data st' = pb_data st ++ packed_bytes os /\
    (pb_pos st' <= pb_size st')%N /\
    firstn (N.to_nat (pb_pos st)) (pb_data st) ++ returned_bytes rs
      = firstn (N.to_nat (pb_pos st')) (pb_data st').
Proof.
  intro HT. induction os as [|o os IH]; intros st Hi Hp Hf Hs Hl.
  - exists [], st. cbn. rewrite !app_nil_r. auto.
  - cbn [forallb] in Hf, Hs. apply andb_prop in Hf as [Hf1 Hf2].
    apply andb_prop in Hs as [Hs1 Hs2].
    unfold packed_bytes in Hl; cbn [map concat] in Hl; fold (packed_bytes os) in Hl.
    rewrite len_app in Hl. pose proof Hi as (H1 & H2 & H3).
    pose proof (pb_data_len st H1) as HL. 
    assert (PK : forall x, len x = len x -> forall st1, inv st1 ->
       pb_data st1 = pb_data st ++ x -> pb_pos st1 = pb_pos st ->
       (pb_size st + (len x + len (packed_bytes os)) <= T)%N ->
       exists rs st', run st1 os = (rs, Some st') /\ inv st' /\
         pb_data st' = pb_data st ++ x ++ packed_bytes os /\
         (pb_pos st' <= pb_size st')%N /\
         firstn (N.to_nat (pb_pos st)) (pb_data st) ++ returned_bytes rs
           = firstn (N.to_nat (pb_pos st')) (pb_data st')).
    { intros x _ st1 I1 D1 P1 L1.
      assert (S1 : pb_size st1 = (pb_size st + len x)%N).
      { rewrite <- (pb_data_len st1) by apply I1. rewrite D1, len_app, HL. reflexivity. }
      destruct (IH st1 I1) as (rs & st' & E & I' & D' & P' & F'); auto; [lia|lia|].
      exists rs, st'. rewrite D1, <- app_assoc in D'.
      repeat split; auto; try apply I'.
      rewrite <- F'. f_equal. rewrite D1, P1, firstn_app.
      replace (N.to_nat (pb_pos st) - length (pb_data st))%nat with O
        by (rewrite len_length, HL; lia).
      cbn. now rewrite app_nil_r. }
    assert (UP : forall s, (s + T < W)%N ->
       (len (packed_bytes os) + pb_size st <= T)%N ->
       exists rs st', (let '(r, so) := obs RBytes (unpackraw s st) in
          match so with None => ([r], None)
          | Some s0 => let '(rs, e) := run s0 os in (r :: rs, e) end) = (rs, Some st') /\
          inv st' /\ pb_data st' = pb_data st ++ packed_bytes os /\
         (pb_pos st' <= pb_size st')%N /\
         firstn (N.to_nat (pb_pos st)) (pb_data st) ++ returned_bytes rs
           = firstn (N.to_nat (pb_pos st')) (pb_data st')).
    { intros s Hss Hl'. destruct (N.le_gt_cases (pb_pos st + s) (pb_size st)) as [L|L].
      - rewrite unpackraw_ok by auto. cbn [obs].
        set (st1 := mk_pb (pb_mem st) (pb_size st) (pb_pos st + s)%N).
        assert (I1 : inv st1) by (unfold inv, st1; cbn; lia).
        destruct (IH st1 I1) as (rs & st' & E & I' & D' & P' & F'); auto;
          try (unfold st1; cbn [pb_pos pb_size]; lia).
        rewrite E. eexists _, st'. split; [reflexivity|].
        repeat split; auto; try apply I'.
        rewrite <- F'. change (pb_data st1) with (pb_data st).
        unfold st1; cbn [pb_pos]. rewrite <- read_at_app by lia.
        now rewrite <- app_assoc.
      - rewrite unpackraw_end by (auto; lia). cbn [obs].
        destruct (IH st Hi) as (rs & st' & E & I' & D' & P' & F'); auto; [lia|].
        rewrite E. eexists _, st'. split; [reflexivity|].
        repeat split; auto; try apply I'. }
    destruct o as [x|x|s|s| | |z|z| |s junk]; try discriminate Hf1; cbn [run step].
    + destruct (packraw_ok st x Hi) as (st1 & E & I1 & D1 & P1); [lia|].
      rewrite E; cbn [obs].
      destruct (PK x eq_refl st1 I1 D1 P1 Hl) as (rs & st' & E' & Rest).
      rewrite E'. exists (RUnit :: rs), st'. split; [reflexivity|]. exact Rest.
    + cbn [is_pack_or_unpack] in Hf1.
      destruct (append_ok st x Hi) as (st1 & E & I1 & D1 & P1); [lia|lia|].
      rewrite E; cbn [obs].
      destruct (PK x eq_refl st1 I1 D1 P1 Hl) as (rs & st' & E' & Rest).
      rewrite E'. exists (RUnit :: rs), st'. split; [reflexivity|]. exact Rest.
    + cbn [sane_size] in Hs1. apply (UP s); [lia|].
      change (len []) with 0%N in Hl. lia.
    + rewrite popoff_unpackraw. cbn [sane_size] in Hs1.
      apply (UP s); [lia|].
      change (len []) with 0%N in Hl. lia.
Qed.

Lemma fifo os :
  forallb is_pack_or_unpack os = true ->
  forallb (sane_size (len (packed_bytes os))) os = true ->
  (len (packed_bytes os) < W)%N ->
  exists rs st', run pb_empty os = (rs, Some st') /\
    pb_data st' = packed_bytes os /\
    pb_size st' = len (packed_bytes os) /\
    pb_pos st' = len (returned_bytes rs) /\
    returned_bytes rs = firstn (N.to_nat (pb_pos st')) (packed_bytes os).
Proof.
  intros Hf Hs Hl.
  destruct (fifo_gen _ os Hl pb_empty inv_empty) as (rs & st' & E & I' & D & P & F); auto.
  - cbn. lia.
  - cbn [pb_size pb_empty pb_new]. lia.
  - exists rs, st'. change (pb_data pb_empty) with (@nil ascii) in D, F.
    rewrite firstn_nil in F. cbn [app] in D, F.
    assert (S' : pb_size st' = len (packed_bytes os))
      by (rewrite <- (pb_data_len st') by apply I'; now rewrite D).
    rewrite D in F. repeat split; auto.
    rewrite F, len_firstn. lia.
Qed.

(** ** reads at the end *)
Lemma read_iff st s :
  inv st -> (pb_pos st + s < W)%N ->
  ((pb_pos st + s <= pb_size st)%N ->
     exists x, unpackraw s st = Ok x (mk_pb (pb_mem st) (pb_size st) (pb_pos st + s)%N) /\
       exists pre post, pb_data st = pre ++ x ++ post /\ len pre = pb_pos st /\ len x = s) /\
  ((pb_size st < pb_pos st + s)%N -> unpackraw s st = Throw PackError st) /\
  popoff s st = unpackraw s st.
Proof.
  intros Hi Hw. split; [|split].
  - intro L. eexists. split; [now apply unpackraw_ok|].
    apply read_at_split. rewrite pb_data_len by apply Hi. exact L.
  - now apply unpackraw_end.
  - apply popoff_unpackraw.
Qed.

(** ** comparison *)
Lemma N_of_ascii_inj a b : N_of_ascii a = N_of_ascii b -> a = b.
Proof. intro H. rewrite <- (ascii_N_embedding a), <- (ascii_N_embedding b). now rewrite H. Qed.

Lemma memcmp_zero mag x : forall y, length x = length y -> (memcmp mag x y = 0%Z <-> x = y).
Proof.
  induction x as [|a x IH]; intros [|b y] HL; cbn [length] in HL; try lia; [now cbn|].
  cbn [memcmp]. destruct (N.eqb_spec (N_of_ascii a) (N_of_ascii b)) as [E|E].
  - apply N_of_ascii_inj in E. subst b. rewrite IH by lia. split; congruence.
  - destruct (N.ltb_spec (N_of_ascii a) (N_of_ascii b)); split; intro H0;
      try discriminate; congruence.
Qed.
Lemma memcmp_neg mag x : forall y, length x = length y -> ((memcmp mag x y < 0)%Z <-> bytes_lt x y).
Proof.
  induction x as [|a x IH]; intros [|b y] HL; cbn [length] in HL; try lia; cbn [memcmp bytes_lt];
    [lia|].
  destruct (N.eqb_spec (N_of_ascii a) (N_of_ascii b)) as [E|E].
  - apply N_of_ascii_inj in E. subst b. rewrite IH by lia. split; [auto|].
    intros [H|[_ H]]; [lia|exact H].
  - destruct (N.ltb_spec (N_of_ascii a) (N_of_ascii b)) as [L|L]; split; intro H; auto.
    + lia.
    + pose proof (Zgt_pos_0 (mag (N_of_ascii a) (N_of_ascii b))). lia.
    + destruct H as [H|[-> _]]; lia.
Qed.
Lemma bytes_lt_total x : forall y, length x = length y -> bytes_lt x y \/ x = y \/ bytes_lt y x.
Proof.
  induction x as [|a x IH]; intros [|b y] HL; cbn [length] in HL; try lia; cbn [bytes_lt]; auto.
  destruct (N.lt_total (N_of_ascii a) (N_of_ascii b)) as [L|[E|L]]; auto.
  apply N_of_ascii_inj in E; subst b. destruct (IH y) as [H|[H|H]]; [lia|..]; subst; auto.
Qed.
Lemma bytes_lt_irrefl x : ~ bytes_lt x x.
Proof. induction x as [|a x IH]; cbn; [auto|]. intros [H|[_ H]]; [lia|auto]. Qed.
Lemma bytes_lt_trans x : forall y z, bytes_lt x y -> bytes_lt y z -> bytes_lt x z.
Proof.
  induction x as [|a x IH]; intros [|b y] [|c z]; cbn; auto; try tauto.
  intros [H1|[-> H1]] [H2|[-> H2]]; auto; try (left; lia).
  right; split; auto. eapply IH; eauto.
Qed.
Lemma size_first_lt_irrefl x : ~ size_first_lt x x.
Proof. intros [H|[_ H]]; [lia|]. now apply bytes_lt_irrefl in H. Qed.
Lemma size_first_lt_trans x y z : size_first_lt x y -> size_first_lt y z -> size_first_lt x z.
Proof.
  intros [H1|[E1 H1]] [H2|[E2 H2]]; unfold size_first_lt; try (left; lia).
  right; split; [lia|]. eapply bytes_lt_trans; eauto.
Qed.
Lemma size_first_lt_total x y : size_first_lt x y \/ x = y \/ size_first_lt y x.
Proof.
  unfold size_first_lt. destruct (N.lt_total (len x) (len y)) as [H|[H|H]]; auto.
  destruct (bytes_lt_total x y) as [B|[B|B]]; auto. unfold len in H; lia.
Qed.

Lemma memcmp_sym_neg mag x y : length x = length y ->
  ((0 < memcmp mag x y)%Z <-> bytes_lt y x).
Proof.
  intro HL. destruct (Z.lt_total 0 (memcmp mag x y)) as [H|[H|H]].
  - split; [|auto]. intros _.
    destruct (bytes_lt_total x y HL) as [B|[B|B]]; auto.
    + apply (memcmp_neg mag) in B; [lia|exact HL].
    + apply (memcmp_zero mag) in B; [lia|exact HL].
  - symmetry in H. apply memcmp_zero in H; [|exact HL]. subst.
    split; [|intro B; now apply bytes_lt_irrefl in B].
    intro B. assert (memcmp mag y y = 0%Z) by now apply memcmp_zero. lia.
  - split; [lia|]. intro B. apply memcmp_neg in H; [|exact HL].
    exfalso. eapply bytes_lt_irrefl, bytes_lt_trans; eauto.
Qed.

Lemma cmp_spec mag x y : inv x -> inv y ->
  ((pb_cmp mag x y < 0)%Z <-> size_first_lt (pb_data x) (pb_data y)) /\
  ((pb_cmp mag x y = 0)%Z <-> pb_data x = pb_data y) /\
  ((0 < pb_cmp mag x y)%Z <-> size_first_lt (pb_data y) (pb_data x)).
Proof.
  intros (Hx & _ & _) (Hy & _ & _).
  pose proof (pb_data_len x Hx) as Lx. pose proof (pb_data_len y Hy) as Ly.
  unfold pb_cmp, size_first_lt. rewrite Lx, Ly.
  destruct (N.eqb_spec (pb_size x) (pb_size y)) as [E|E].
  - assert (HL : length (pb_data x) = length (pb_data y))
      by (unfold len in Lx, Ly; lia).
    rewrite memcmp_neg, memcmp_zero, memcmp_sym_neg by exact HL.
    repeat split; intro H; auto; try (right; split; [lia|exact H]);
      destruct H as [H|[_ H]]; auto; lia.
  - assert (ND : pb_data x <> pb_data y) by congruence.
    destruct (N.ltb_spec (pb_size x) (pb_size y)); repeat split; intro H1; try lia; try congruence.
Qed.

Lemma eq_ne_spec mag x y : inv x -> inv y ->
  (pb_eq mag x y = true <-> pb_data x = pb_data y) /\
  (pb_ne mag x y = true <-> pb_data x <> pb_data y).
Proof.
  intros Hx Hy. destruct (cmp_spec mag x y Hx Hy) as (_ & E & _).
  unfold pb_eq, pb_ne. rewrite <- E. rewrite negb_true_iff, Z.eqb_neq, Z.eqb_eq. tauto.
Qed.

(** the operators [<], [>] when [memcmp] returns only -1, 0, 1 *)
Lemma memcmp_unit mag x : (forall a b, mag a b = 1%positive) -> forall y,
  (memcmp mag x y = -1 \/ memcmp mag x y = 0 \/ memcmp mag x y = 1)%Z.
Proof.
  intro Hm. induction x as [|a x IH]; intros [|b y]; cbn [memcmp]; auto.
  rewrite Hm. destruct (N.eqb _ _); auto. destruct (N.ltb _ _); auto.
Qed.
Lemma lt_gt_unit mag x y : (forall a b, mag a b = 1%positive) -> inv x -> inv y ->
  (pb_lt mag x y = true <-> size_first_lt (pb_data x) (pb_data y)) /\
  (pb_gt mag x y = true <-> size_first_lt (pb_data y) (pb_data x)).
Proof.
  intros Hm Hx Hy. destruct (cmp_spec mag x y Hx Hy) as (L & _ & G).
  assert (U : (pb_cmp mag x y = -1 \/ pb_cmp mag x y = 0 \/ pb_cmp mag x y = 1)%Z).
  { unfold pb_cmp. destruct (N.eqb _ _); [now apply memcmp_unit|].
    destruct (N.ltb _ _); auto. }
  unfold pb_lt, pb_gt. rewrite <- L, <- G, !Z.eqb_eq. lia.
Qed.

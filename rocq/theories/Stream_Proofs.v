From Verif Require Import Base Base_Proofs PackBuf_Model PackBuf_Spec PackBuf_Proofs.
From Verif Require Import Codec_Model Codec_Spec Codec_Proofs Codec_Proofs2 Codec_Proofs3.
From Verif Require Import Stream_Model Stream_Spec.
Ltac Zify.zify_post_hook ::= Z.div_mod_to_equations.

Section BinStream.
Variable klt : nat -> val -> val -> bool.
Notation bhas := (bhas klt).
Notation bup := (bup klt).

Lemma bpk_writes t : forall v, bhas t v = true -> writes (bpk t v) (benc t v).
Proof.
  assert (SEQ : forall t vs, (forall v, bhas t v = true -> writes (bpk t v) (benc t v)) ->
     forallb (bhas t) vs = true ->
     writes (forM (bpk t) vs) (concat (map (benc t) vs))).
  { intros t0 vs IH H. rewrite forallb_forall in H. apply writes_forM. auto. }
  induction t as [n|n|t IH|m c t IH]; intros v Hv; destruct v; try discriminate;
    cbn [bpk benc Stream_Spec.bhas] in *; bsplit.
  - apply writes_packraw.
  - apply writes_bind; [apply writes_packraw|].
    destruct l; [apply writes_ret|apply writes_packraw].
  - apply writes_bind; [apply writes_packraw|]. auto.
  - apply writes_bind; [apply writes_packraw|]. auto.
Qed.

Lemma chunks_concat n : forall vs,
  forallb (fun v => match v with VRaw b => (length b =? n)%nat | _ => false end) vs = true ->
  chunks n (length vs) (concat (map raw_of vs)) = vs.
Proof.
  induction vs as [|v vs IH]; intro H; [reflexivity|]. cbn [forallb] in H. bsplit.
  destruct v; try discriminate. apply Nat.eqb_eq in H. cbn [length chunks map concat raw_of].
  rewrite firstn_app_l, skipn_app_l by lia. now rewrite IH.
Qed.
Lemma concat_raw_len n : forall vs,
  forallb (fun v => match v with VRaw b => (length b =? n)%nat | _ => false end) vs = true ->
  len (concat (map raw_of vs)) = (len vs * N.of_nat n)%N.
Proof.
  induction vs as [|v vs IH]; intro H; [reflexivity|]. cbn [forallb] in H. bsplit.
  destruct v; try discriminate. apply Nat.eqb_eq in H. cbn [map concat raw_of].
  rewrite len_app, len_cons, IH by auto. unfold len at 1. lia.
Qed.

(** reading a vector whose elements are all there *)
Lemma reads_vec n vs old :
  bhas (BVec n) (VList vs) = true ->
  reads (bup (BVec n) old) (benc (BVec n) (VList vs)) (VList vs).
Proof.
  intro H. cbn [Stream_Spec.bhas] in H. bsplit.
  pose proof (concat_raw_len n vs H0) as CL. pose proof (chunks_concat n vs H0) as CC.
  assert (L1 : (len vs < 2^63)%N).
  { destruct n; [discriminate|]. rewrite P63 in *. nia. }
  cbn [Stream_Model.bup benc].
  eapply reads_bind.
  { apply reads_unpackraw; [now rewrite le_len|rewrite P63; lia]. }
  rewrite unle_le by (change (256 ^ N.of_nat 8)%N with W; now apply P63_W).
  cbn zeta. rewrite N.ltb_lt in *.
  rewrite (N.mod_small (len vs * N.of_nat n)) by (now apply P63_W).
  assert (M63 : ((2 ^ 63 - 1) / N.of_nat n <? len vs)%N = false).
  { apply N.ltb_ge. apply N.div_le_lower_bound; [lia|]. rewrite P63 in *. nia. }
  assert (SUB : forall st, ok_st st -> ((pb_size st + (W - pb_pos st)) mod W = pb_size st - pb_pos st)%N).
  { intros st (S1 & S2 & S3). rewrite P63 in *. rewrite W_eq.
    replace (pb_size st + (18446744073709551616 - pb_pos st))%N
      with ((pb_size st - pb_pos st) + 1 * 18446744073709551616)%N by lia.
    rewrite N.mod_add by lia. apply N.mod_small. lia. }
  assert (RD := reads_unpackraw (concat (map raw_of vs)) _ CL ltac:(assumption)).
  split.
  - intros st r Hs. pose proof (has_len _ _ Hs) as HL. rewrite len_app, CL in HL.
    rewrite SUB by apply Hs.
    replace (pb_size st - pb_pos st <? len vs * N.of_nat n)%N with false by lia.
    rewrite M63. destruct (N.eqb_spec (len vs) 0) as [E|E].
    + destruct vs; [|rewrite len_cons in E; lia]. cbn. unfold adv. rewrite N.add_0_r. now destruct st.
    + unfold bind. rewrite (proj1 RD st r Hs). rewrite CL, N.ltb_irrefl.
      replace (N.to_nat (len vs)) with (length vs) by (unfold len; lia). rewrite CC. reflexivity.
  - intros st p Hs Hp. pose proof (has_len _ _ Hs) as HL. apply sprefix_len in Hp.
    rewrite SUB by apply Hs.
    replace (pb_size st - pb_pos st <? len vs * N.of_nat n)%N with true by lia. eauto.
Qed.

Lemma reads_flat t v old :
  flat t = true -> bhas t v = true -> reads (bup t old) (benc t v) v.
Proof.
  destruct t as [n|n| |]; intros Hf Hv; try discriminate; destruct v; try discriminate.
  - cbn [Stream_Spec.bhas] in Hv. bsplit. rewrite Nat.eqb_eq, N.ltb_lt in *.
    cbn [Stream_Model.bup benc]. eapply reads_bind0; [|apply reads_ret].
    apply reads_unpackraw; [unfold len; congruence|assumption].
  - now apply reads_vec.
Qed.

Lemma fold_acc_seq (vs : list val) : forall acc v,
  exists w, fold_left (fun '(acc, _) x => (acc ++ [x], x)) vs (acc, v) = (acc ++ vs, w).
Proof.
  induction vs as [|x vs IH]; intros acc v; cbn [fold_left]; [rewrite app_nil_r; eauto|].
  destruct (IH (acc ++ [x]) x) as (w & E). exists w. rewrite E, <- app_assoc. reflexivity.
Qed.
Lemma fold_acc_ins multi c (vs : list val) : forall acc v,
  exists w, fold_left (fun '(acc, _) x => (ins klt multi c x acc, x)) vs (acc, v) =
    (fold_left (fun l x => ins klt multi c x l) vs acc, w).
Proof.
  induction vs as [|x vs IH]; intros acc v; cbn [fold_left]; [eauto|]. apply IH.
Qed.

Lemma reads_seq_flat t vs olds :
  flat t = true -> bhas (BSeq t) (VList vs) = true ->
  reads (bup (BSeq t) (VList olds)) (benc (BSeq t) (VList vs)) (VList (olds ++ vs)).
Proof.
  intros Hf H. cbn [Stream_Spec.bhas] in H. bsplit. rewrite forallb_forall in H0.
  rewrite N.ltb_lt in H. cbn [Stream_Model.bup benc as_list].
  eapply reads_bind; [apply reads_unpackraw; [now rewrite le_len|rewrite P63; lia]|].
  rewrite unle_le by exact H.
  destruct (fold_acc_seq vs olds (bdflt t)) as (w & EF).
  eapply reads_bind0.
  - apply reads_iterM with (e := benc t) (I := fun _ => True)
      (g := fun '(acc, _) x => (acc ++ [x], x)); [|exact I].
    intros [acc v0] v _ Hin. split; [|exact I].
    eapply reads_bind0; [now apply reads_flat; auto|apply reads_ret].
  - rewrite EF. apply reads_ret.
Qed.
Lemma reads_assoc_flat multi c t vs :
  flat t = true -> bhas (BAssoc multi c t) (VList vs) = true ->
  reads (bup (BAssoc multi c t) (VList [])) (benc (BAssoc multi c t) (VList vs)) (VList vs).
Proof.
  intros Hf H. cbn [Stream_Spec.bhas] in H. bsplit. rewrite forallb_forall in *.
  rewrite N.ltb_lt in *. cbn [Stream_Model.bup benc as_list].
  eapply reads_bind; [apply reads_unpackraw; [now rewrite le_len|rewrite P63; lia]|].
  rewrite unle_le by assumption.
  destruct (fold_acc_ins multi c vs [] (bdflt t)) as (w & EF).
  eapply reads_bind0.
  - apply reads_iterM with (e := benc t) (I := fun _ => True)
      (g := fun '(acc, _) x => (ins klt multi c x acc, x)); [|exact I].
    intros [acc v0] v _ Hin. split; [|exact I].
    eapply reads_bind0; [now apply reads_flat; auto|apply reads_ret].
  - rewrite EF. rewrite (sorted_snoc_fold klt multi c vs []) by assumption. apply reads_ret.
Qed.

(** ** arbitrary bytes *)
Definition safe0 {A} (m : M pack_buf A) (Q : A -> Prop) : Prop :=
  forall st, ok_st st ->
  match m st with
  | Ok a st' => ok_st st' /\ pb_mem st' = pb_mem st /\ pb_size st' = pb_size st /\ Q a
  | Throw _ st' => ok_st st' /\ pb_mem st' = pb_mem st /\ pb_size st' = pb_size st
  | UB => False
  end.
Lemma safe0_ret A (a : A) (Q : A -> Prop) : Q a -> safe0 (ret a) Q.
Proof. intros H st Hok. cbn. auto. Qed.
Lemma safe0_bind A B (m : M pack_buf A) (f : A -> M pack_buf B) P Q :
  safe0 m P -> (forall a, P a -> safe0 (f a) Q) -> safe0 (bind m f) Q.
Proof.
  intros H1 H2 st Hok. unfold bind. specialize (H1 st Hok).
  destruct (m st) as [a s1|e s1|]; auto.
  destruct H1 as (Ok1 & M1 & S1 & Pa).
  specialize (H2 a Pa s1 Ok1).
  destruct (f a s1) as [b s2|e s2|]; auto.
  - destruct H2 as (A1 & A2 & A3 & A4). repeat split; try apply A1; congruence || auto.
  - destruct H2 as (A1 & A2 & A3). repeat split; try apply A1; congruence.
Qed.
Lemma safe0_unpackraw s :
  (s < 2^63)%N -> safe0 (unpackraw s) (fun b => len b = s).
Proof.
  intros Hs st Hok. pose proof Hok as (H1 & H2 & H3).
  destruct (N.le_gt_cases (pb_pos st + s) (pb_size st)) as [L|L].
  - rewrite unpackraw_ok by (auto using ok_inv). cbn.
    repeat split; cbn; try lia.
    unfold read_at. rewrite len_firstn, len_skipn, pb_data_len by lia. lia.
  - rewrite unpackraw_end by (auto using ok_inv; rewrite W_eq, P63 in *; lia). auto.
Qed.
Lemma safe0_ext A (m1 m2 : M pack_buf A) Q :
  (forall st, m1 st = m2 st) -> safe0 m2 Q -> safe0 m1 Q.
Proof. intros E H st. rewrite E. apply H. Qed.
Lemma safe0_iter_nat A (f : A -> M pack_buf A) n : forall a,
  (forall a, safe0 (f a) (fun _ => True)) -> safe0 (iter_nat n f a) (fun _ => True).
Proof.
  induction n as [|n IH]; intros a H; cbn [iter_nat]; [now apply safe0_ret|].
  eapply safe0_bind; [apply H|]. intros b _. now apply IH.
Qed.
Lemma safe0_iterM A (f : A -> M pack_buf A) n a :
  (forall a, safe0 (f a) (fun _ => True)) -> safe0 (iterM n f a) (fun _ => True).
Proof.
  intro H. eapply safe0_ext; [intro st; apply iterM_nat|]. now apply safe0_iter_nat.
Qed.

Lemma bup_safe t : bty_ok t = true -> forall old, safe0 (bup t old) (fun _ => True).
Proof.
  induction t as [n|n|t IH|m c t IH]; intros Ht old; cbn [bty_ok] in Ht; cbn [Stream_Model.bup].
  - bsplit. rewrite N.ltb_lt in *. eapply safe0_bind; [now apply safe0_unpackraw|].
    intros; now apply safe0_ret.
  - bsplit. eapply safe0_bind; [apply safe0_unpackraw; rewrite P63; lia|].
    intros s8 L8. cbn zeta. intros st Hok. pose proof Hok as (S1 & S2 & S3).
    destruct (N.ltb_spec ((pb_size st + (W - pb_pos st)) mod W) ((unle s8 * N.of_nat n) mod W));
      [cbn; auto|].
    destruct (N.ltb_spec ((2 ^ 63 - 1) / N.of_nat n) (unle s8)) as [L|L]; [cbn; auto|].
    destruct (N.eqb_spec (unle s8) 0) as [E|E]; [cbn; auto|].
    assert (HB : (unle s8 * N.of_nat n < 2^63)%N).
    { rewrite P63 in *. pose proof (N.mul_div_le (9223372036854775808 - 1) (N.of_nat n) ltac:(lia)). nia. }
    rewrite (N.mod_small (unle s8 * N.of_nat n)) by now apply P63_W.
    refine (safe0_bind _ _ _ _ _ _ (safe0_unpackraw _ HB) _ st Hok).
    intros b Lb. rewrite Lb, N.ltb_irrefl. now apply safe0_ret.
  - eapply safe0_bind; [apply safe0_unpackraw; rewrite P63; lia|]. intros s8 _.
    eapply safe0_bind; [apply safe0_iterM|intros; now apply safe0_ret].
    intros [acc v]. eapply safe0_bind; [now apply IH|]. intros; now apply safe0_ret.
  - eapply safe0_bind; [apply safe0_unpackraw; rewrite P63; lia|]. intros s8 _.
    eapply safe0_bind; [apply safe0_iterM|intros; now apply safe0_ret].
    intros [acc v]. eapply safe0_bind; [now apply IH|]. intros; now apply safe0_ret.
Qed.
End BinStream.

(** write then read a whole buffer *)
Lemma write_read A m e (r : M pack_buf A) a :
  writes m e -> reads r e a -> (len e < 2^63)%N ->
  exists st1 st2, m pb_empty = Ok tt st1 /\ r st1 = Ok a st2 /\ pb_pos st2 = pb_size st2 /\
    pb_data st2 = e.
Proof.
  intros Hw Hr HL.
  destruct (Hw pb_empty inv_empty) as (st1 & E1 & I1 & D1 & P1).
  { cbn [pb_size pb_empty pb_new]. now apply P63_W. }
  change (pb_data pb_empty) with (@nil ascii) in D1. cbn [app] in D1.
  change (pb_pos pb_empty) with 0%N in P1.
  assert (S1 : pb_size st1 = len e) by (rewrite (inv_size _ I1), D1; reflexivity).
  assert (HAS : has st1 (e ++ [])).
  { split; [unfold ok_st; destruct I1; lia|]. rewrite P1, D1, app_nil_r. reflexivity. }
  exists st1, (adv st1 (len e)). split; [exact E1|].
  split; [exact (proj1 Hr st1 [] HAS)|].
  unfold adv; cbn [pb_pos pb_size]. split; [lia|exact D1].
Qed.

(** ** iterators *)
Lemma reads_it l dist old : (dist <= len l)%N -> (len l < W)%N ->
  reads (it_unpack (Some l) old) (le 8 dist) dist.
Proof.
  intros H1 H2. unfold it_unpack. eapply reads_bind0; [apply reads_up64; lia|].
  replace (dist <=? len l)%N with true by lia. apply reads_ret.
Qed.
Lemma reads_it_none old : reads (it_unpack None old) (le 8 0) old.
Proof.
  unfold it_unpack. eapply reads_bind0; [apply reads_up64; rewrite W_eq; lia|]. apply reads_ret.
Qed.

(** ** files *)
Lemma f_write_spec cs : forall fb,
  forallb wtyped_ok cs = true -> f_mode fb = Writef -> f_off fb = len (f_data fb) ->
  (f_size fb < W)%N ->
  exists fb', f_write_all cs fb = Ok tt fb' /\ f_mode fb' = Writef /\
    f_data fb' = f_data fb ++ concat (map wbytes cs) /\ f_off fb' = len (f_data fb') /\
    f_size fb' = ((f_size fb + sum (map typed_len cs)) mod W)%N.
Proof.
  induction cs as [|c cs IH]; intros fb Hc Hm Ho Hs; cbn [f_write_all map concat].
  - exists fb. rewrite app_nil_r. cbn [sum fold_right]. rewrite N.add_0_r, N.mod_small by auto. auto.
  - cbn [forallb] in Hc. bsplit.
    assert (FW : forall x, fwrite x fb = (true, mk_fb Writef (f_data fb ++ x)
        (f_off fb + len x)%N (f_size fb) (f_pos fb))).
    { intro x. unfold fwrite. rewrite Hm. f_equal. f_equal.
      rewrite firstn_app_l by (rewrite Ho, <- len_length; reflexivity).
      rewrite skipn_all2, app_nil_r; [reflexivity|]. rewrite len_length. lia. }
    destruct c as [x|x]; cbn [wbytes typed_len].
    + destruct x as [|a x]; [discriminate|]. set (xx := a :: x).
      destruct (IH (mk_fb Writef (f_data fb ++ xx) (f_off fb + len xx)%N
                          ((f_size fb + len xx) mod W)%N (f_pos fb)))
        as (fb' & E & M' & D' & O' & S'); cbn [f_mode f_data f_off f_size f_pos] in *.
      { assumption. } { reflexivity. } { rewrite len_app. lia. }
      { apply N.mod_lt. rewrite W_eq; lia. }
      exists fb'. split; [|split; [exact M'|]].
      { unfold bind, f_append. fold xx. unfold xx at 1. rewrite FW. exact E. }
      rewrite D', <- app_assoc. split; [reflexivity|]. split; [rewrite O', D'; now rewrite <- app_assoc|].
      rewrite S'. cbn [sum fold_right]. fold (sum (map typed_len cs)).
      rewrite N.add_mod_idemp_l by (rewrite W_eq; lia). f_equal. lia.
    + destruct x as [|a x].
      * unfold bind, f_packraw. cbn [app]. apply (IH fb); auto.
      * set (xx := a :: x).
        destruct (IH (mk_fb Writef (f_data fb ++ xx) (f_off fb + len xx)%N
                          (f_size fb) (f_pos fb)))
          as (fb' & E & M' & D' & O' & S'); cbn [f_mode f_data f_off f_size f_pos] in *.
        { assumption. } { reflexivity. } { rewrite len_app. lia. } { exact Hs. }
        exists fb'. split; [|split; [exact M'|]].
        { unfold bind, f_packraw. fold xx. unfold xx at 1. rewrite FW. exact E. }
        rewrite D', <- app_assoc. split; [reflexivity|]. split; [rewrite O', D'; now rewrite <- app_assoc|].
        rewrite S'. reflexivity.
Qed.

Lemma f_read_spec d cs : forall fb r q,
  forallb typed_ok cs = true -> f_mode fb = Readf -> f_data fb = d -> f_off fb = f_pos fb ->
  (len d < W)%N -> slices d (f_pos fb) cs = Some (r, q) ->
  exists fb', f_read_all cs fb = Ok r fb' /\ f_mode fb' = Readf /\ f_data fb' = d /\
    f_off fb' = f_pos fb' /\ f_pos fb' = q.
Proof.
  induction cs as [|c cs IH]; intros fb r q Hc Hm Hd Ho Hl Hs; cbn [slices f_read_all] in *.
  - injection Hs as <- <-. exists fb. auto.
  - cbn [forallb] in Hc. bsplit.
    assert (RD : forall s, (s <> 0)%N ->
       (if (f_pos fb + s <=? len d)%N
        then match slices d (f_pos fb + s) cs with
           | Some (r, q) => Some (firstn (N.to_nat s) (skipn (N.to_nat (f_pos fb)) d) :: r, q)
           | None => None
           end
        else None) = Some (r, q) ->
       exists fb', (x <- f_popoff s ;; r <- f_read_all cs ;; ret (x :: r)) fb = Ok r fb' /\
         f_mode fb' = Readf /\ f_data fb' = d /\ f_off fb' = f_pos fb' /\ f_pos fb' = q).
    { intros s Hs0 E. destruct (N.leb_spec (f_pos fb + s) (len d)) as [L|L]; [|discriminate].
      destruct (slices d (f_pos fb + s) cs) as [[r' q']|] eqn:ES; [|discriminate].
      injection E as <- <-. unfold bind, f_popoff, fread. rewrite Hm, Hd, Ho.
      replace (s =? 0)%N with false by lia.
      replace (f_pos fb + s <=? len d)%N with true by lia.
      cbn [f_mode f_data f_off f_size f_pos].
      rewrite N.mod_small by lia.
      destruct (IH (mk_fb Readf d (f_pos fb + s)%N (f_size fb) (f_pos fb + s)%N) r' q')
        as (fb' & E' & R'); auto.
      rewrite E'. exists fb'. split; [reflexivity|exact R']. }
    destruct c as [s|s|].
    + apply RD; auto. intros ->. discriminate.
    + destruct (N.eq_dec s 0) as [->|Hs0].
      * rewrite N.add_0_r in Hs. destruct (N.leb_spec (f_pos fb) (len d)); [|discriminate].
        destruct (slices d (f_pos fb) cs) as [[r' q']|] eqn:ES; [|discriminate].
        injection Hs as <- <-. destruct (IH fb r' q') as (fb' & E' & R'); auto.
        unfold bind, f_unpackraw. cbn [N.eqb]. rewrite E'. exists fb'. split; [reflexivity|exact R'].
      * destruct (RD s Hs0 Hs) as (fb' & E & R). exists fb'. split; [|exact R].
        rewrite <- E. unfold bind, f_popoff, f_unpackraw.
        replace (s =? 0)%N with false by lia. reflexivity.
    + destruct (slices d 0 cs) as [[r' q']|] eqn:ES; [|discriminate]. injection Hs as <- <-.
      destruct (IH (fseek 0 (mk_fb (f_mode fb) (f_data fb) (f_off fb) (f_size fb) 0)) r' q')
        as (fb' & E' & R'); auto.
      unfold bind at 1. unfold f_reseto. unfold bind. rewrite E'. exists fb'. split; [reflexivity|exact R'].
Qed.

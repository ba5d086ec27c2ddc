(** * Class templates *)
From Verif Require Import Base Base_Proofs SMap Dec Desc_Model Tok_Model Parse_Model Parse_Props Ns_Props.
From Verif Require Import ClassParse_Model ClassParse_Proofs ClassParse_Spec ClassFile_Spec ClassMem_Proofs ClassFile_Proofs ClassEnum_Proofs ClassNest_Proofs.

(** ** The identifiers in a text *)
Lemma char_cases (P : ascii -> bool) : forallb (fun n => P (ascii_of_nat n)) (seq 0 256) = true -> forall c, P c = true.
Proof.
  intros G c. rewrite forallb_forall in G. specialize (G (nat_of_ascii c)). rewrite ascii_nat_embedding in G. apply G. apply in_seq. pose proof (nat_ascii_bounded c). lia.
Qed.
Lemma isident_alnum c : isident c = alnum_ c.
Proof. apply Bool.eqb_prop. revert c. apply char_cases. vm_compute. reflexivity. Qed.
Lemma start_digit c : isstart c = true -> digit c = false.
Proof.
  intros H. assert (X : (negb (isstart c) || negb (digit c))%bool = true). { clear H. revert c. apply char_cases. vm_compute. reflexivity. }
  rewrite H in X. cbn in X. now apply Bool.negb_true_iff.
Qed.
Lemma nostart c : isstart c = false -> digit c = true \/ alnum_ c = false.
Proof.
  intros H. enough (X : (isstart c || digit c || negb (alnum_ c))%bool = true). { rewrite H in X. cbn [orb] in X. apply Bool.orb_prop in X. destruct X as [X|X]; [auto|right; now apply Bool.negb_true_iff]. }
  clear H. revert c. apply char_cases. vm_compute. reflexivity.
Qed.
Lemma digit_alnum c : digit c = true -> alnum_ c = true. Proof. intros H. unfold alnum_. rewrite H. apply Bool.orb_true_r. Qed.
Lemma letter_alnum c : letter c = true -> alnum_ c = true. Proof. intros H. unfold alnum_. now rewrite H. Qed.
Fixpoint takei (l : tok) : tok := match l with c :: l => if isident c then c :: takei l else [] | [] => [] end.
Fixpoint dropi (l : tok) : tok := match l with c :: l' => if isident c then dropi l' else l | [] => [] end.
Lemma take_drop l : l = takei l ++ dropi l.
Proof. induction l as [|c l IH]; [reflexivity|]. cbn [takei dropi]. destruct (isident c); [|reflexivity]. cbn [app]. now rewrite <- IH. Qed.
Lemma take_alnum l : Forall (fun c => alnum_ c = true) (takei l).
Proof. induction l as [|c l IH]; [constructor|]. cbn [takei]. destruct (isident c) eqn:E; constructor; [now rewrite <- isident_alnum|exact IH]. Qed.
Lemma drop_hd l : alnum_ (hd " "%char (dropi l)) = false.
Proof. induction l as [|c l IH]; [reflexivity|]. cbn [dropi]. destruct (isident c) eqn:E; [exact IH|]. cbn [hd]. now rewrite <- isident_alnum. Qed.
Lemma drop_length l : (length (dropi l) <= length l)%nat.
Proof. rewrite (take_drop l) at 2. rewrite app_length. lia. Qed.
Lemma tokens_some l : forall t, token_list l (Some t) = (t ++ takei l) :: token_list (dropi l) None.
Proof.
  induction l as [|c l IH]; intros t; [cbn; now rewrite app_nil_r|]. cbn [token_list takei dropi]. destruct (isident c) eqn:E.
  - rewrite IH, <- app_assoc. reflexivity.
  - rewrite app_nil_r. f_equal. cbn [token_list]. replace (isstart c) with false; [reflexivity|]. symmetry.
    destruct (isstart c) eqn:S; [|reflexivity]. rewrite isident_alnum in E. rewrite (letter_alnum c S) in E. discriminate.
Qed.
Lemma max_prefix a b c d : Forall (fun c => alnum_ c = true) a -> Forall (fun c => alnum_ c = true) c -> alnum_ (hd " "%char b) = false -> alnum_ (hd " "%char d) = false ->
  a ++ b = c ++ d -> a = c /\ b = d.
Proof.
  revert c. induction a as [|x a IH]; intros c A C B D E.
  - destruct c as [|y c]; [auto|]. cbn [app] in E. subst b. inversion C; subst. cbn [hd] in B. congruence.
  - destruct c as [|y c]; cbn [app] in E; [subst d; inversion A; subst; cbn [hd] in D; congruence|].
    inversion A; inversion C; subst. injection E as -> E. destruct (IH c H2 H6 B D E) as (-> & ->). auto.
Qed.
Lemma last_app_ne (x y : tok) d : y <> [] -> last (x ++ y) d = last y d.
Proof. intros N. induction x as [|c x IH]; [reflexivity|]. cbn [app]. rewrite <- IH. destruct (x ++ y) eqn:E; [apply app_eq_nil in E; destruct E; congruence|reflexivity]. Qed.
Lemma last_in (x : tok) d : x <> [] -> In (last x d) x.
Proof. induction x as [|c x IH]; [congruence|]. intros _. destruct x as [|e x]; [left; reflexivity|]. right. change (In (last (e :: x) d) (e :: x)). apply IH. discriminate. Qed.
Lemma word_split t r w : ident t = true -> Forall (fun c => alnum_ c = true) t -> alnum_ (hd " "%char r) = false ->
  (word_in w (t ++ r) <-> w = t \/ word_in w r).
Proof.
  intros ID AT HR. split.
  - intros (x & d & y & E & LX & D & IW & AW & HY). destruct x as [|c0 x0].
    + left. destruct d as [|c d].
      * cbn [app] in E. symmetry in E. destruct (max_prefix w y t r AW AT HY HR E). assumption.
      * exfalso. destruct t as [|e t]; [discriminate|]. cbn [app] in E. injection E as -> _. inversion D; subst. cbn [ident] in ID. rewrite start_digit in H1 by exact ID. discriminate.
    + right. set (x := c0 :: x0) in *. assert (NX : x <> []) by discriminate.
      assert (X : exists x', x = t ++ x' /\ x' <> []).
      { clear - E LX AT NX. set (z := d ++ w ++ y) in E. clearbody z x. revert x E LX NX. induction t as [|e t IH]; intros x E LX NX; [exists x; auto|].
        destruct x as [|f x]; [congruence|]. cbn [app] in E. injection E as -> E. inversion AT; subst. destruct x as [|g x].
        - cbn [last] in LX. congruence.
        - destruct (IH H2 (g :: x) E LX ltac:(discriminate)) as (x' & -> & N). exists x'. auto. }
      destruct X as (x' & EX & NX'). exists x', d, y. rewrite EX, <- app_assoc in E. apply app_inv_head in E. split; [exact E|]. rewrite EX, last_app_ne in LX by exact NX'. auto.
  - intros [->|(x & d & y & E & LX & D & IW & AW & HY)].
    + exists [], [], r. repeat split; auto.
    + exists (t ++ x), d, y. rewrite E, <- app_assoc. split; [reflexivity|]. split; [|auto].
      destruct x as [|c x]; [|rewrite last_app_ne by discriminate; exact LX]. exfalso. rewrite E in HR. destruct d as [|c d]; cbn [app hd] in HR.
      * destruct w as [|c w]; [discriminate|]. cbn [app hd] in HR. inversion AW; subst. congruence.
      * inversion D; subst. rewrite (digit_alnum c) in HR by assumption. discriminate.
Qed.
Lemma token_set_in l w : In w (token_set l) <-> word_in w l.
Proof.
  unfold token_set. remember (length l) as n eqn:L. assert (LE : (length l <= n)%nat) by lia. clear L. revert l LE. induction n as [|n IH]; intros l LE.
  - destruct l; [|cbn in LE; lia]. cbn. split; [intros []|]. intros (x & d & y & E & _ & _ & I & _).
    symmetry in E. apply app_eq_nil in E. destruct E as (_ & E). apply app_eq_nil in E. destruct E as (_ & E). apply app_eq_nil in E. destruct E as (-> & _). discriminate.
  - destruct l as [|c l]; [apply (IH []); cbn; lia|]. cbn [length] in LE. cbn [token_list]. destruct (isstart c) eqn:S.
    + rewrite tokens_some. cbn [app]. rewrite (take_drop l) at 3. change (c :: takei l ++ dropi l) with ((c :: takei l) ++ dropi l).
      rewrite word_split; [|exact S|constructor; [now apply letter_alnum|apply take_alnum]|apply drop_hd]. rewrite <- IH by (pose proof (drop_length l); lia). cbn [In]. split; intros [X|X]; auto.
    + rewrite IH by lia. clear IH. split; intros (x & d & y & E & LX & D & IW & AW & HY).
      * destruct x as [|e x].
        -- destruct (nostart c S) as [DC|NC].
           ++ exists [], (c :: d), y. rewrite E. repeat split; auto.
           ++ exists [c], d, y. rewrite E. repeat split; auto.
        -- exists (c :: e :: x), d, y. rewrite E. repeat split; auto.
      * destruct x as [|e x].
        -- destruct d as [|e d]; cbn [app] in E.
           ++ destruct w as [|e w]; [discriminate|]. cbn [app] in E. injection E as -> _. cbn [ident] in IW. change (isstart e = true) in IW. congruence.
           ++ injection E as -> E. inversion D; subst. exists [], d, y. repeat split; auto.
        -- cbn [app] in E. injection E as -> E. exists x, d, y. split; [exact E|]. split; [|auto]. destruct x; [reflexivity|exact LX].
Qed.

(** ** The last [::] outside angle brackets *)
Lemma net_app a b : net (a ++ b) = (net a + net b)%Z.
Proof. induction a as [|c a IH]; [reflexivity|]. cbn [app net]. rewrite IH. lia. Qed.
Lemma dblcolon_spec l : forall c s,
  match dblcolon l c (net (c :: s)) with
  | Some p => exists q r, rev l ++ c :: s = q ++ bs "::" ++ r /\ length q = p /\ net r = 0%Z
      /\ forall q' r', rev l ++ c :: s = q' ++ bs "::" ++ r' -> (length q' < length l)%nat -> net r' = 0%Z -> (length r <= length r')%nat
  | None => forall q' r', rev l ++ c :: s = q' ++ bs "::" ++ r' -> (length q' < length l)%nat -> net r' <> 0%Z
  end.
Proof.
  induction l as [|e l IH]; intros c s; cbn [dblcolon].
  - intros q' r' _ L. cbn in L. lia.
  - assert (RE : rev (e :: l) ++ c :: s = rev l ++ e :: c :: s) by (cbn [rev]; rewrite <- app_assoc; reflexivity).
    assert (STEP : forall n, n = net (e :: c :: s) -> (e = ":"%char -> c = ":"%char -> net s <> 0%Z) ->
      match dblcolon l e n with
      | Some p => exists q r, rev (e :: l) ++ c :: s = q ++ bs "::" ++ r /\ length q = p /\ net r = 0%Z
          /\ forall q' r', rev (e :: l) ++ c :: s = q' ++ bs "::" ++ r' -> (length q' < length (e :: l))%nat -> net r' = 0%Z -> (length r <= length r')%nat
      | None => forall q' r', rev (e :: l) ++ c :: s = q' ++ bs "::" ++ r' -> (length q' < length (e :: l))%nat -> net r' <> 0%Z
      end).
    { intros n -> NOT. specialize (IH e (c :: s)). rewrite RE.
      assert (EQ : forall q' r', rev l ++ e :: c :: s = q' ++ bs "::" ++ r' -> length q' = length l -> net r' <> 0%Z).
      { intros q' r' E LL. assert (X : rev l = q' /\ e :: c :: s = bs "::" ++ r').
        { assert (Y : firstn (length l) (rev l ++ e :: c :: s) = firstn (length l) (q' ++ bs "::" ++ r')) by now rewrite E.
          rewrite firstn_app, rev_length, Nat.sub_diag, firstn_O, app_nil_r in Y. rewrite <- (rev_length l) in Y at 1. rewrite firstn_all in Y. rewrite <- LL in Y.
          rewrite firstn_app, Nat.sub_diag, firstn_O, app_nil_r, firstn_all in Y. split; [exact Y|]. rewrite Y in E. now apply app_inv_head in E. }
        destruct X as (_ & X). injection X as -> -> ->. now apply NOT. }
      destruct (dblcolon l e (net (e :: c :: s))) as [p|].
      - destruct IH as (q & r & A & B & C & D). exists q, r. repeat split; auto. intros q' r' E L N. cbn [length] in L.
        destruct (Nat.eq_dec (length q') (length l)) as [LL|LL]; [destruct (EQ _ _ E LL N)|]. apply (D q'); auto. lia.
      - intros q' r' E L N. cbn [length] in L. destruct (Nat.eq_dec (length q') (length l)) as [LL|LL]; [exact (EQ _ _ E LL N)|]. apply (IH q' r' E); [lia|exact N]. }
    cbn [net] in *. unfold ceq in *. destruct (Ascii.eqb e ">") eqn:E1.
    + apply STEP; [lia|]. apply Ascii.eqb_eq in E1. subst. discriminate.
    + destruct (Ascii.eqb e "<") eqn:E2.
      * apply STEP; [lia|]. apply Ascii.eqb_eq in E2. subst. discriminate.
      * destruct (Ascii.eqb e ":" && (net s + _ =? 0)%Z && Ascii.eqb c ":")%bool eqn:E3.
        -- apply Bool.andb_true_iff in E3. destruct E3 as (E3 & E5). apply Bool.andb_true_iff in E3. destruct E3 as (E3 & E4). apply Ascii.eqb_eq in E3, E5. apply Z.eqb_eq in E4. subst.
           exists (rev l), s. split; [rewrite RE; reflexivity|]. split; [apply rev_length|]. split; [cbn in E4; lia|].
           intros q' r' E L _. apply (f_equal (@length ascii)) in E. rewrite RE, !app_length, rev_length in E. cbn [length bs list_ascii_of_string] in E, L. lia.
        -- apply STEP; [lia|]. intros -> -> N. rewrite N in E3. discriminate.
Qed.
Lemma last_colon_spec b : last b " "%char <> "<"%char ->
  match last_colon b with
  | Some p => exists q r, qual q r b /\ length q = p
  | None => forall q r, ~ qual q r b
  end.
Proof.
  intros LB. unfold last_colon. destruct (rev b) as [|c l] eqn:E.
  - intros q r (X & _). apply (f_equal (@rev ascii)) in X. rewrite E in X. rewrite !rev_app_distr in X. symmetry in X. apply app_eq_nil in X. destruct X as (X & _). apply app_eq_nil in X. destruct X as (_ & X). discriminate.
  - assert (EB : b = rev l ++ [c]) by (rewrite <- (rev_involutive b), E; reflexivity).
    assert (NC : (if ceq c ">" then 1 else 0)%Z = net [c]).
    { cbn [net]. unfold ceq. destruct (Ascii.eqb c ">"); [reflexivity|]. destruct (Ascii.eqb c "<") eqn:E2; [|reflexivity]. apply Ascii.eqb_eq in E2. subst. rewrite last_app_ne in LB by discriminate. destruct (LB eq_refl). }
    assert (SHORT : forall q r, b = q ++ bs "::" ++ r -> (length q < length l)%nat).
    { intros q r X. rewrite EB in X. apply (f_equal (@length ascii)) in X. rewrite !app_length, rev_length in X. cbn [length bs list_ascii_of_string] in X. lia. }
    rewrite NC. pose proof (dblcolon_spec l c []) as S. rewrite <- EB in S. destruct (dblcolon l c (net [c])) as [p|].
    + destruct S as (q & r & A & B & C & D). exists q, r. split; [|exact B]. split; [exact A|]. split; [exact C|]. intros q' r' E' N. apply (D q'); [exact E'|eapply SHORT; exact E'|exact N].
    + intros q r (A & B & _). exact (S q r A (SHORT q r A) B).
Qed.
Lemma word_in_facts w s : word_in w s -> occ w s /\ w <> [] /\ ~ In ":"%char w.
Proof.
  intros (x & d & y & E & _ & _ & I & A & _). split; [exists (x ++ d), y; now rewrite E, <- app_assoc|]. split; [intros ->; discriminate|].
  intros IN. rewrite Forall_forall in A. specialize (A _ IN). discriminate.
Qed.
Lemma qual_fun q r q' r' b : qual q r b -> qual q' r' b -> length q = length q'.
Proof.
  intros (A & B & C) (A' & B' & C'). pose proof (C _ _ A' B'). pose proof (C' _ _ A B). rewrite A in A'. apply (f_equal (@length ascii)) in A'. rewrite !app_length in A'. lia.
Qed.
Lemma app_cut (a b c d : tok) : a ++ b = c ++ d -> (length a <= length c)%nat -> exists e, c = a ++ e /\ b = e ++ d.
Proof.
  revert c. induction a as [|x a IH]; intros c E L; [exists c; auto|]. destruct c as [|y c]; [cbn in L; lia|]. cbn [app length] in *. injection E as -> E. destruct (IH c E ltac:(lia)) as (e & -> & ->). exists e. auto.
Qed.
Lemma typename_typed templ b : last b " "%char <> "<"%char -> typename_needed templ b = true <-> typed templ b.
Proof.
  intros LB. unfold typename_needed. pose proof (last_colon_spec b LB) as S. destruct (last_colon b) as [p|].
  - destruct S as (q & r & Q & L). rewrite existsb_exists. split.
    + intros (w & IB & H). apply Bool.andb_true_iff in H. destruct H as (IT & F). apply existsb_exists in IT. destruct IT as (w' & IT & EW). apply beq_eq in EW. subst w'.
      apply token_set_in in IB, IT. destruct (word_in_facts _ _ IB) as (OC & NE & NC).
      unfold find_from in F. cbn [Nat.leb skipn] in F. destruct (find_at w b 0) as [k|] eqn:E; [|exfalso; apply (Parse_Props.find_at_none w b 0) in E; contradiction].
      apply find_at_some in E. destruct E as (x & y & (EX & MX) & LK). apply Nat.ltb_lt in F. rewrite LK, <- L in F. destruct Q as (QB & QN & QM).
      destruct (app_cut x (w ++ y) q (bs "::" ++ r)) as (e & EQ & EY); [rewrite <- EX; exact QB|lia|].
      assert (LE : (length w <= length e)%nat).
      { destruct (Nat.le_gt_cases (length w) (length e)) as [X|X]; [exact X|]. exfalso. destruct (app_cut e (bs "::" ++ r) w y) as (f & EW & EF); [now symmetry|lia|].
        apply NC. rewrite EW. apply in_or_app. right. destruct f as [|c f]; [rewrite app_nil_r in EW; subst; lia|]. injection EF as <- _. now left. }
      destruct (app_cut w y e (bs "::" ++ r)) as (f & EE & _); [exact EY|exact LE|]. exists q, r, w, x, f. split; [repeat split; auto|]. split; [exact IT|]. split; [exact IB|]. now rewrite EQ, EE.
    + intros (q' & r' & w & x & y & Q' & WT & WB & EQ). exists w. split; [now apply token_set_in|]. apply Bool.andb_true_iff. split.
      * apply existsb_exists. exists w. split; [now apply token_set_in|apply beq_refl].
      * pose proof (qual_fun _ _ _ _ _ Q Q') as LQ. destruct (word_in_facts _ _ WB) as (OC & NE & NC). unfold find_from. cbn [Nat.leb skipn]. destruct (find_at w b 0) as [k|] eqn:E; [|reflexivity].
        apply find_at_some in E. destruct E as (x0 & y0 & (EX & MX) & LK). apply Nat.ltb_lt. destruct Q' as (QB & _). rewrite EQ, <- !app_assoc in QB. specialize (MX _ _ QB).
        rewrite EQ, !app_length in LQ. assert (0 < length w)%nat by (destruct w; [congruence|cbn; lia]). lia.
  - split; [discriminate|]. intros (q & r & w & x & y & Q & _). destruct (S q r Q).
Qed.

(** ** The bases of a template *)
Lemma bacts_templ o k templ bl fl : Forall2 (fun (f : bool) b => last b " "%char <> "<"%char /\ (f = true <-> typed templ b)) fl (base_names (respect_private o) k bl) ->
  concat (map (bact o k templ) bl) = map (base_acts_t o) (combine fl (base_names (respect_private o) k bl)).
Proof.
  unfold base_names. revert fl. induction bl as [|b bl IH]; intros fl H; [destruct fl; reflexivity|]. cbn [map concat filter] in *. unfold bact at 1.
  destruct (base_seen _ _ b); cbn [map app] in *; [|apply IH; exact H]. inversion H as [|f x fs xs (LB & F) R]; subst. cbn [combine map]. rewrite (IH fs R). f_equal.
  unfold base_act, base_acts_t. cbn [fst snd].
  assert (T : typename_needed templ (ptext (b_name b)) = f) by (apply Bool.eq_true_iff_eq; rewrite typename_typed by exact LB; tauto). now rewrite T.
Qed.

(** ** The name of a template *)
Lemma seen_free s : free s -> forall r st, seen_templ (s ++ r) (false :: st) = seen_templ r (false :: st).
Proof.
  induction s as [|c s IH]; intros (A & B) r st; [reflexivity|]. cbn [app seen_templ].
  replace (ceq c "<") with false. 2: { symmetry. apply Bool.not_true_iff_false. intros E. unfold ceq in E. apply Ascii.eqb_eq in E. subst. apply A. now left. }
  replace (ceq c ">") with false. 2: { symmetry. apply Bool.not_true_iff_false. intros E. unfold ceq in E. apply Ascii.eqb_eq in E. subst. apply B. now left. }
  rewrite IH by (split; intros X; [apply A|apply B]; now right). now destruct (_ && _)%bool.
Qed.
Lemma seen_plain s : Forall plain_char s -> forall r st, seen_templ (s ++ r) st = seen_templ r st.
Proof.
  induction 1 as [|c s (A & B & C) _ IH]; intros r st; [reflexivity|]. cbn [app seen_templ]. unfold ceq.
  apply Ascii.eqb_neq in A, B, C. rewrite A, B, C. cbn [andb]. apply IH.
Qed.
Definition sp_tok (t : tok) : Prop := t = bs "<" \/ t = bs ">" \/ Forall plain_char t.
Lemma sp_blank (t : tok) : Forall plain_char (if teq t "." then [] else [" "%char]).
Proof. destruct (teq t "."); repeat constructor; discriminate. Qed.
Lemma seen_lt r b st : seen_templ ("<"%char :: r) (b :: st) = seen_templ r (false :: true :: st). Proof. reflexivity. Qed.
Lemma seen_gt r b st : seen_templ (">"%char :: r) (b :: st) = seen_templ r st. Proof. reflexivity. Qed.
Lemma first_lt t : strchr "=<>" (first t) = false -> t <> bs "<" /\ t <> bs ">".
Proof. intros H. split; intros ->; discriminate. Qed.
Lemma seen_tpl ts ks : tpl ts ks -> Forall sp_tok ks -> forall r b st, exists b', seen_templ (ttxt ks ++ r) (b :: st) = seen_templ r (b' :: st).
Proof.
  induction 1; intros F r b0 st.
  - eauto.
  - inversion F as [|? ? T R]; subst. destruct T as [T|[T|T]]; [apply first_lt in H; tauto|apply first_lt in H; tauto|].
    rewrite ttxt_cons, <- !app_assoc, seen_plain by exact T. rewrite seen_plain by apply sp_blank. apply IHtpl. exact R.
  - inversion F as [|? ? _ R]; subst. apply Forall_app in R. destruct R as (R1 & R2). inversion R2 as [|? ? _ R3]; subst.
    rewrite ttxt_cons, ttxt_app, ttxt_cons, <- ?app_assoc. change (bs "<" ++ ?z) with ("<"%char :: z). rewrite seen_lt, seen_plain by apply sp_blank.
    destruct (IHtpl1 R1 (bs ">" ++ (if teq (bs ">") "." then [] else [" "%char]) ++ ttxt ks ++ r) false (true :: st)) as (b' & E). rewrite E.
    change (bs ">" ++ ?z) with (">"%char :: z). rewrite seen_gt, seen_plain by apply sp_blank. apply IHtpl2. exact R3.
  - apply IHtpl. exact F.
Qed.
Lemma args_plain ps : Forall param_ok ps -> Forall plain_char (args ps).
Proof.
  assert (ID : forall l, Forall (fun c => isident c = true) l -> Forall plain_char l).
  { intros l. apply Forall_impl. intros c H. repeat split; intros ->; discriminate. }
  assert (A1 : forall p, param_ok p -> Forall plain_char (arg p)).
  { intros p (_ & _ & _ & H). unfold arg. apply Forall_app. split; [now apply ID|]. destruct (pdots p); repeat constructor; discriminate. }
  induction 1 as [|p ps P F IH]; [constructor|]. destruct ps as [|q ps]; [now apply A1|]. change (args (p :: q :: ps)) with (arg p ++ bs "," ++ args (q :: ps)).
  apply Forall_app. split; [now apply A1|]. apply Forall_app. split; [repeat constructor; discriminate|exact IH].
Qed.
(** the arguments, which follow the name *)
Lemma targs_shape ps sp : Forall param_ok ps -> sp_ok sp -> exists y, targs_of ps sp = "<"%char :: y.
Proof. intros _ _. destruct sp as [(ts, ks)|]; unfold targs_of; [rewrite ttxt_cons|]; eexists; reflexivity. Qed.
Lemma seen_targs ps sp s : free s -> Forall param_ok ps -> sp_ok sp -> seen_templ (s ++ targs_of ps sp) [false] = Some false.
Proof.
  intros FR P SP. rewrite seen_free by exact FR. destruct sp as [(ts, ks)|]; cbn [targs_of sp_ok] in *.
  - destruct SP as (T & _ & F). rewrite ttxt_cons, ttxt_app, <- ?app_assoc. change (bs "<" ++ ?z) with ("<"%char :: z). rewrite seen_lt, seen_plain by apply sp_blank.
    destruct (seen_tpl ts ks T F (ttxt [bs ">"]) false [true]) as (b' & ->). reflexivity.
  - change (bs "<" ++ ?z) with ("<"%char :: z). rewrite seen_lt, seen_plain by (now apply args_plain). reflexivity.
Qed.
Lemma templ_long ps : ps <> [] -> Forall param_ok ps -> teq (templ_of ps) "< > " = false.
Proof.
  intros NE F. apply is_ne. intros E. assert (L : length (templ_of ps) = length (bs "< > ")) by now rewrite E. clear E.
  unfold templ_of in L. rewrite ttxt_cons, ttxt_app, !app_length in L.
  assert (X : (2 <= length (ttxt (params_toks ps)))%nat \/ (1 <= length (ttxt (params_toks ps)))%nat) by (right; destruct ps as [|p ps]; [congruence|]; inversion F as [|? ? (_ & _ & N & I) _]; subst;
    assert (Y : In (pname p) (params_toks (p :: ps))) by (destruct ps; cbn [params_toks]; [|apply in_or_app; left]; unfold param_toks; apply in_or_app; right; apply in_or_app; right; left; reflexivity);
    apply in_split in Y; destruct Y as (u & v & ->); rewrite ttxt_app, ttxt_cons, !app_length; destruct (pname p); [congruence|cbn [length]; lia]).
  change (length (bs "<")) with 1%nat in L. change (length (if teq (bs "<") "." then [] else [" "%char])) with 1%nat in L. change (length (ttxt [bs ">"])) with 2%nat in L. change (length (bs "< > ")) with 4%nat in L. lia.
Qed.
Lemma templ_ne ps : templ_of ps <> [].
Proof. unfold templ_of. rewrite ttxt_cons. discriminate. Qed.
Lemma outer_name ns name : ends ns -> word name -> outer (ns ++ name) = name.
Proof.
  intros (x & ->) W. unfold outer. rewrite <- app_assoc.
  replace (rfind2 (x ++ bs "::" ++ name)) with (Some (length x)).
  - rewrite app_assoc, skipn_app. replace (length x + 2)%nat with (length (x ++ bs "::")) by (rewrite app_length; reflexivity). rewrite skipn_all, Nat.sub_diag. reflexivity.
  - rewrite rfind2_last, rfind2_colon by (now apply word_colon). reflexivity.
Qed.

(** ** A class template, from its name *)
Lemma templ_item o ns ps par k name sp bl fl b rs cs fs us rest t1 g : overloading o = false -> ends ns -> free ns -> g_ns g = ns ->
  params_ok ps par -> word name -> sp_ok sp -> Forall bspec_ok bl ->
  body (use_mbr o) (respect_private o) ns true (ns ++ name ++ targs_of ps sp ++ bs "::") name true k false b rs cs fs us ->
  Forall2 (fun (f : bool) b => last b " "%char <> "<"%char /\ (f = true <-> typed (templ_of ps) b)) fl (base_names (respect_private o) k bl) ->
  exists x y, assign_class_action (pcls o) ns (templ_of ps) (templ_of ps) false g (Inp t1 (kw k) name (sptoks sp ++ btoks bl ++ bs "{" :: b ++ bs "}" :: rest)) =
    COk tt (evs_eff o (rs ++ [EvTempl k ns name (templ_of ps) (targs_of ps sp) (combine fl (base_names (respect_private o) k bl)) (chosen cs fs us)]) g) (Inp x y (bs "}") rest).
Proof.
  intros OV EN FR GN (NE & PO & _ & _) W SP B BD FL. destruct (body_names _ _ _ _ _ _ _ _ _ _ _ _ _ _ BD) as (U & N).
  assert (EN' : ends (g_ns g)) by now rewrite GN.
  assert (G : good o ns true (ns ++ name ++ targs_of ps sp ++ bs "::") name true k false b rs cs fs us) by (now apply body_run).
  assert (SC : scope true (ns ++ name ++ targs_of ps sp ++ bs "::") name true (templ_of ps)).
  { split; [destruct (beqP (templ_of ps) []) as [X|_]; [now apply templ_ne in X|reflexivity]|]. split; [now apply word_ne|]. destruct (targs_shape ps sp PO SP) as (y & ->). exists (ns ++ name), y. split; [now rewrite <- app_assoc|]. split; [|now apply outer_name].
    intros X. apply in_app_or in X. destruct X as [X|X]; [destruct FR as (F1 & _); contradiction|]. apply word_free in W. destruct W; contradiction. }
  destruct (btoks bl ++ bs "{" :: b ++ bs "}" :: rest) as [|t m] eqn:E; [destruct bl; discriminate|].
  assert (T : t = bs ":" \/ t = bs "{") by (destruct bl; cbn [btoks app] in E; [right|left]; congruence).
  assert (LM : (length b <= length m)%nat).
  { apply (f_equal (@length _)) in E. rewrite app_length in E. cbn [length] in E. rewrite app_length in E. cbn [length] in E. lia. }
  assert (HEAD : exists a2 a1, forall K : tok -> C unit, (nxt ;- i :- get ;; name :- (if teq (tk i) "<" then t :- lift get_template_args ;; cret ((ns ++ name) ++ t)
             else t :- opt (extract_targs (templ_of ps)) ;; cret ((ns ++ name) ++ t)) ;; K name) g (Inp t1 (kw k) name (sptoks sp ++ t :: m)) = K ((ns ++ name) ++ targs_of ps sp) g (Inp a2 a1 t m)).
  { destruct sp as [(ts, ks)|]; cbn [sptoks app targs_of].
    - destruct SP as (TP & _ & _). destruct (C53_template (kw k) name ts ks t m TP) as (a2 & a1 & GT). exists a2, a1. intros K. unfold cbind at 1, nxt, lift at 1, next. cbn [more tk1 tk].
      rewrite cbind_get. cbn [tk]. change (teq (bs "<") "<") with true. cbv iota. unfold cbind, lift. rewrite <- app_assoc. cbn [app]. rewrite GT. reflexivity.
    - exists (kw k), name. intros K. unfold cbind at 1, nxt, lift at 1, next. cbn [more tk1 tk]. rewrite cbind_get. cbn [tk]. replace (teq t "<") with false by (destruct T; subst; reflexivity).
      unfold templ_of. rewrite C66_args by assumption. reflexivity. }
  destruct HEAD as (a2 & a1 & HEAD).
  unfold assign_class_action. rewrite cbind_get. cbn [tk tk1]. rewrite HEAD.
  unfold cbind at 1, lift at 1, pbound, qualified. cbn [more tk].
  replace (teq t "::") with false by (destruct T; subst; reflexivity). rewrite cbind_get. cbn [tk].
  replace (strchr ":{" (first t)) with true by (destruct T; subst; reflexivity).
  replace (teq (kw k ++ [" "%char]) "class ") with k by (destruct k; reflexivity).
  rewrite <- (app_assoc ns name), <- !app_assoc.
  unfold cbind at 1, pcls at 1.
  destruct (good_class o OV ns true _ _ _ _ _ _ _ _ _ bl G U N B (pbound (Inp a2 a1 t m)) (templ_of ps) g a2 a1 t m rest SC ltac:(unfold pbound; cbn [more]; lia) GN E) as (x & y & ->).
  exists x, y. rewrite (free_has_lt ns FR). cbn [negb andb]. rewrite (app_assoc ns name (targs_of ps sp)), seen_targs; [|apply free_app; [exact FR|now apply word_free]|exact PO|exact SP].
  unfold cbind at 1, cbind at 1, opt. cbn [negb when].
  rewrite new_action_run by (rewrite evs_eff_ns, GN; exact EN). rewrite evs_eff_ns, GN. unfold upd. f_equal. rewrite evs_eff_app. unfold evs_eff at 2. cbn [fold_left ev_eff]. unfold templ_eff.
  rewrite (bacts_templ o k (templ_of ps) bl fl FL), <- !app_assoc. reflexivity.
Qed.
Lemma templ_fwd o ns ps par k name rest t1 g : params_ok ps par -> word name ->
  assign_class_action (pcls o) ns (templ_of ps) (templ_of ps) false g (Inp t1 (kw k) name (bs ";" :: rest)) = COk tt (add_type (false, ns ++ name ++ targs_of ps None) g) (Inp (kw k) name (bs ";") rest).
Proof.
  intros (NE & PO & _ & _) W. unfold assign_class_action, cbind, get, nxt, lift, next. cbn [more tk1 tk].
  change (teq (bs ";") "<") with false. unfold templ_of. rewrite C66_args by assumption. unfold opt, cret, pbound, qualified. cbn [more tk]. change (teq (bs ";") "::") with false. cbv iota. cbn [tk].
  change (strchr ":{" (first (bs ";"))) with false. cbv iota. unfold upd. cbn [targs_of]. now rewrite <- !app_assoc.
Qed.

(** ** A full specialisation, from its name *)
Lemma spec_head ns name a ka t1 k t m g : tpl a ka -> exists a2 a1, forall K : tok -> C unit,
  (nxt ;- i :- get ;; name :- (if teq (tk i) "<" then t :- lift get_template_args ;; cret ((ns ++ name) ++ t)
             else t :- opt (extract_targs []) ;; cret ((ns ++ name) ++ t)) ;; K name) g (Inp t1 (kw k) name (sptoks (Some (a, ka)) ++ t :: m))
  = K ((ns ++ name) ++ targs_of [] (Some (a, ka))) g (Inp a2 a1 t m).
Proof.
  intros TP. cbn [sptoks app targs_of].
  destruct (C53_template (kw k) name a ka t m TP) as (a2 & a1 & GT). exists a2, a1. intros K. unfold cbind at 1, nxt, lift at 1, next. cbn [more tk1 tk].
  rewrite cbind_get. cbn [tk]. change (teq (bs "<") "<") with true. cbv iota. unfold cbind, lift. rewrite <- app_assoc. cbn [app]. rewrite GT. reflexivity.
Qed.
Lemma spec_item o ns k name a ka bl b rs cs fs us rest t1 g : overloading o = false -> ends ns -> free ns -> g_ns g = ns ->
  word name -> sp_ok (Some (a, ka)) -> Forall bspec_ok bl ->
  body (use_mbr o) (respect_private o) ns false (ns ++ name ++ targs_of [] (Some (a, ka)) ++ bs "::") name true k false b rs cs fs us ->
  exists x y, assign_class_action (pcls o) ns [] [] false g (Inp t1 (kw k) name (sptoks (Some (a, ka)) ++ btoks bl ++ bs "{" :: b ++ bs "}" :: rest)) =
    COk tt (evs_eff o (rs ++ [EvClass k ns ns (name ++ targs_of [] (Some (a, ka))) (base_names (respect_private o) k bl) (chosen cs fs us)]) g) (Inp x y (bs "}") rest).
Proof.
  intros OV EN FR GN W SP B BD. destruct (body_names _ _ _ _ _ _ _ _ _ _ _ _ _ _ BD) as (U & N). set (sp := Some (a, ka)) in *.
  assert (EN' : ends (g_ns g)) by now rewrite GN.
  assert (G : good o ns false (ns ++ name ++ targs_of [] sp ++ bs "::") name true k false b rs cs fs us) by (now apply body_run).
  assert (SC : scope false (ns ++ name ++ targs_of [] sp ++ bs "::") name true []).
  { split; [reflexivity|]. split; [now apply word_ne|]. destruct (targs_shape [] sp (Forall_nil _) SP) as (y & ->). exists (ns ++ name), y. split; [now rewrite <- app_assoc|]. split; [|now apply outer_name].
    intros X. apply in_app_or in X. destruct X as [X|X]; [destruct FR as (F1 & _); contradiction|]. apply word_free in W. destruct W; contradiction. }
  destruct (btoks bl ++ bs "{" :: b ++ bs "}" :: rest) as [|t m] eqn:E; [destruct bl; discriminate|].
  assert (T : t = bs ":" \/ t = bs "{") by (destruct bl; cbn [btoks app] in E; [right|left]; congruence).
  assert (LM : (length b <= length m)%nat).
  { apply (f_equal (@length _)) in E. rewrite app_length in E. cbn [length] in E. rewrite app_length in E. cbn [length] in E. lia. }
  destruct (spec_head ns name a ka t1 k t m g (proj1 SP)) as (a2 & a1 & HEAD). fold sp in HEAD.
  unfold assign_class_action. rewrite cbind_get. cbn [tk tk1]. rewrite HEAD.
  unfold cbind at 1, lift at 1, pbound, qualified. cbn [more tk].
  replace (teq t "::") with false by (destruct T; subst; reflexivity). rewrite cbind_get. cbn [tk].
  replace (strchr ":{" (first t)) with true by (destruct T; subst; reflexivity).
  replace (teq (kw k ++ [" "%char]) "class ") with k by (destruct k; reflexivity).
  rewrite <- (app_assoc ns name), <- !app_assoc.
  unfold cbind at 1, pcls at 1.
  destruct (good_class o OV ns false _ _ _ _ _ _ _ _ _ bl G U N B (pbound (Inp a2 a1 t m)) [] g a2 a1 t m rest SC ltac:(unfold pbound; cbn [more]; lia) GN E) as (x & y & ->).
  exists x, y. rewrite (free_has_lt ns FR). cbn [negb andb]. rewrite (app_assoc ns name (targs_of [] sp)), seen_targs; [|apply free_app; [exact FR|now apply word_free]|constructor|exact SP].
  unfold cbind at 1, cbind at 1, opt. cbn [negb when].
  rewrite new_action_run by (rewrite evs_eff_ns, GN; exact EN). rewrite evs_eff_ns, GN. unfold upd. f_equal. rewrite evs_eff_app. unfold evs_eff at 2. cbn [fold_left ev_eff].
  rewrite bacts_plain. unfold add_type. rewrite <- !app_assoc. reflexivity.
Qed.
Lemma spec_fwd o ns k name a ka rest t1 g : sp_ok (Some (a, ka)) -> exists x y,
  assign_class_action (pcls o) ns [] [] false g (Inp t1 (kw k) name (sptoks (Some (a, ka)) ++ bs ";" :: rest)) = COk tt (add_type (false, ns ++ name ++ targs_of [] (Some (a, ka))) g) (Inp x y (bs ";") rest).
Proof.
  intros SP. destruct (spec_head ns name a ka t1 k (bs ";") rest g (proj1 SP)) as (a2 & a1 & HEAD). exists a2, a1. unfold assign_class_action. rewrite cbind_get. cbn [tk tk1]. rewrite HEAD.
  unfold cbind at 1, lift at 1, pbound, qualified. cbn [more tk]. change (teq (bs ";") "::") with false. cbv iota. rewrite cbind_get. cbn [tk].
  change (strchr ":{" (first (bs ";"))) with false. cbv iota. unfold upd. now rewrite <- !app_assoc.
Qed.

(** * Proofs: reading documents as people write them, the parser *)
From Verif Require Import Base Base_Proofs SMap Dec Desc_Model Json_Model Json_Spec Xml_Model Xml_Spec Xml_Proofs Xml_Proofs2 Xml_Proofs3 XmlDoc_Spec XmlDoc_Proofs.

(** ** More fuel does not change a result *)
Lemma pbind_ne {A B} : forall (m : pres A) (k : A -> pres B), pbind m k <> PFuel ->
  m = PErr \/ exists a, m = POk a /\ k a <> PFuel.
Proof. intros [a| |] k H; [right; eauto|now left|contradiction]. Qed.
Lemma skip_ws_mono : forall f f' st, f <= f' -> skip_ws f st <> PFuel -> skip_ws f' st = skip_ws f st.
Proof.
  induction f as [|f IH]; intros f' st L H; [now destruct H|]. destruct f' as [|f']; [lia|]. cbn [skip_ws] in *.
  apply pbind_ne in H as [->|([t st'] & -> & H)]; [reflexivity|]. cbn [pbind].
  destruct (all_space t); [apply IH; [lia|exact H]|reflexivity].
Qed.
Lemma process_mono : forall f f' st sc cm, f <= f' -> process_attribute f st sc cm <> PFuel ->
  process_attribute f' st sc cm = process_attribute f st sc cm.
Proof.
  intros f f' st sc cm L H. unfold process_attribute in *.
  assert (N : skip_ws f st <> PFuel) by (intros E; rewrite E in H; now apply H).
  rewrite (skip_ws_mono f f' st L N).
  destruct (skip_ws f st) as [[t st1]| |]; [|reflexivity|contradiction]. cbn [pbind] in *.
  destruct (beq t (bs "=")); [|reflexivity].
  assert (N2 : skip_ws f st1 <> PFuel) by (intros E; rewrite E in H; now apply H).
  now rewrite (skip_ws_mono f f' st1 L N2).
Qed.
Lemma attributes_mono : forall f f' st sx cm, f <= f' -> attributes f st sx cm <> PFuel -> attributes f' st sx cm = attributes f st sx cm.
Proof.
  induction f as [|f IH]; intros f' st sx cm L H; [now destruct H|]. destruct f' as [|f']; [lia|]. cbn [attributes] in *.
  destruct (token_no_eof st) as [[t st1]| |]; [|reflexivity|now destruct H]. cbn [pbind] in *.
  destruct (beq t (bs ">")); [reflexivity|]. destruct (beq t (bs "/>")); [reflexivity|].
  destruct (all_space t); [apply IH; [lia|exact H]|].
  assert (N : process_attribute f st1 (sx ++ dot :: t) cm <> PFuel) by (intros E; rewrite E in H; now apply H).
  rewrite (process_mono f f') by (lia || exact N).
  destruct (process_attribute f st1 (sx ++ dot :: t) cm) as [[st2 cm2]| |]; [|reflexivity|contradiction]. cbn [pbind] in *.
  apply IH; [lia|exact H].
Qed.
Lemma skip_gt_mono : forall f f' t st, f <= f' -> skip_to_gt f t st <> PFuel -> skip_to_gt f' t st = skip_to_gt f t st.
Proof.
  induction f as [|f IH]; intros f' t st L H.
  - cbn [skip_to_gt] in H. destruct (beq t (bs ">")) eqn:E; [|now destruct H]. destruct f'; cbn [skip_to_gt]; now rewrite E.
  - destruct f' as [|f']; [lia|]. cbn [skip_to_gt] in *. destruct (beq t (bs ">")); [reflexivity|].
    destruct (token_no_eof st) as [[t' st']| |]; [|reflexivity|now destruct H]. cbn [pbind] in *. apply IH; [lia|exact H].
Qed.
Lemma pelem_pcont_mono : forall f,
  (forall f' st sc cm tc, f <= f' -> pelem f st sc cm tc <> PFuel -> pelem f' st sc cm tc = pelem f st sc cm tc) /\
  (forall f' st sx ct cm tc, f <= f' -> pcont f st sx ct cm tc <> PFuel -> pcont f' st sx ct cm tc = pcont f st sx ct cm tc).
Proof.
  induction f as [|f [IH1 IH2]].
  - split; intros; now destruct H0.
  - split.
    + intros f' st sc cm tc L H. destruct f' as [|f']; [lia|]. cbn [pelem] in *. cbv zeta in *.
      match type of H with pbind ?q _ <> _ => assert (N : q <> PFuel) by (intros E; rewrite E in H; now apply H) end.
      rewrite (attributes_mono f f') by (lia || exact N).
      match type of H with pbind ?q _ <> _ => destruct q as [[[e st1] cm1]| |] eqn:Q1; [|reflexivity|contradiction] end.
      cbn [pbind] in *. clear N. destruct e; [reflexivity|].
      match type of H with pbind ?q _ <> _ => assert (N : q <> PFuel) by (intros E; rewrite E in H; now apply H) end.
      rewrite (IH2 f') by (lia || exact N).
      match type of H with pbind ?q _ <> _ => destruct q as [[[[ct st2] cm2] tc2]| |] eqn:Q2; [|reflexivity|contradiction] end.
      cbn [pbind] in *. clear N.
      destruct (token_no_eof st2) as [[t st3]| |]; [|reflexivity|now destruct H]. cbn [pbind] in *.
      destruct (endtag_ok sc t); [|reflexivity].
      match type of H with pbind ?q _ <> _ => assert (N : q <> PFuel) by (intros E; rewrite E in H; now apply H) end.
      now rewrite (skip_gt_mono f f') by (lia || exact N).
    + intros f' st sx ct cm tc L H. destruct f' as [|f']; [lia|]. cbn [pcont] in *.
      destruct (token_no_eof st) as [[t st1]| |]; [|reflexivity|now destruct H]. cbn [pbind] in *.
      destruct (beq t (bs "</")); [reflexivity|]. destruct (beq t (bs "<")).
      * destruct (token_no_eof st1) as [[n st2]| |]; [|reflexivity|now destruct H]. cbn [pbind] in *.
        match type of H with pbind ?q _ <> _ => assert (N : q <> PFuel) by (intros E; rewrite E in H; now apply H) end.
        rewrite (IH1 f') by (lia || exact N).
        match type of H with pbind ?q _ <> _ => destruct q as [[[st3 cm3] tc3]| |] eqn:Q2; [|reflexivity|contradiction] end.
        cbn [pbind] in *. apply IH2; [lia|exact H].
      * apply IH2; [lia|exact H].
Qed.

(** ** Results for all large enough fuel *)
Definition Ev {A} (F : nat -> pres A) (r : A) : Prop := exists f0, forall f, f0 <= f -> F f = POk r.
Lemma Ev_S {A} : forall (F : nat -> pres A) r, Ev (fun f => F (S f)) r -> Ev F r.
Proof. intros F r [f0 H]. exists (S f0). intros [|f] L; [lia|]. apply H. lia. Qed.
Lemma Ev_const {A} : forall (F : nat -> pres A) r, (forall f, F f = POk r) -> Ev F r.
Proof. intros F r H. exists 0. auto. Qed.
Lemma Ev_bind {A B} : forall (F : nat -> pres A) (k : nat -> A -> pres B) a r,
  Ev F a -> Ev (fun f => k f a) r -> Ev (fun f => pbind (F f) (k f)) r.
Proof.
  intros F k a r [f1 H1] [f2 H2]. exists (f1 + f2). intros f L. rewrite H1 by lia. cbn [pbind]. apply H2. lia.
Qed.
Lemma Ev_ext {A} : forall (F G : nat -> pres A) r, (forall f, F f = G f) -> Ev G r -> Ev F r.
Proof. intros F G r E [f0 H]. exists f0. intros f L. rewrite E. auto. Qed.

(** the state [st] is at the text [s], or has its first delimiter pending *)
Definition feq (st : tst) (s : list ascii) : Prop := token_no_eof st = token_no_eof (st0 s).
Lemma feq_st0 : forall s, feq (st0 s) s. Proof. reflexivity. Qed.
Lemma delim_ne : forall c, delim c = true -> c <> nul /\ c <> "/"%char /\ c <> "\"%char /\ c <> "<"%char.
Proof. intros c H. repeat split; intros ->; vm_compute in H; discriminate. Qed.
Lemma retval_delim : forall c s, delim c = true -> retval c [] s = TTok [c] s nul.
Proof.
  intros c s H. apply delim_ne in H as (_ & H1 & H2 & _). unfold retval.
  destruct (ascii_dec c "/"); [contradiction|]. destruct (ascii_dec c "\"); [contradiction|]. reflexivity.
Qed.
Lemma token_delim : forall c s, delim c = true -> token_no_eof (st0 (c :: s)) = POk ([c], st0 s).
Proof. intros c s H. rewrite token_tl, tl_delim, retval_delim by exact H. reflexivity. Qed.
Lemma feq_delim : forall c s, delim c = true -> feq {| inp := s; nxt := c |} (c :: s).
Proof.
  intros c s H. unfold feq. rewrite token_delim by exact H. apply delim_ne in H as (H0 & H1 & H2 & _). now apply token_pending.
Qed.
Lemma space_delim : forall c, isspace c = true -> delim c = true.
Proof. intros c H. unfold delim. now rewrite H. Qed.

(** names *)
Lemma name_ordinary : forall c, namechar c = true -> ordinary c = true.
Proof. intros [[] [] [] [] [] [] [] []] H; vm_compute in H |- *; congruence. Qed.
Lemma tl_name : forall n tok s, Forall (fun c => namechar c = true) n -> tl tok (n ++ s) = tl (tok ++ n) s.
Proof.
  induction n as [|c n IH]; intros tok s H.
  - now rewrite app_nil_r.
  - apply Forall_cons_iff in H as [H1 H2]. cbn [app]. rewrite tl_char by (now apply name_ordinary).
    rewrite IH by exact H2. now rewrite <- app_assoc.
Qed.
(** what may follow a name *)
Definition ends (s : list ascii) : Prop :=
  match s with c :: s' => delim c = true \/ (c = "/"%char /\ exists s'', s' = ">"%char :: s'') | [] => False end.
Lemma token_name_ends : forall n s, okname n -> ends s ->
  exists st, token_no_eof (st0 (n ++ s)) = POk (n, st) /\ feq st s.
Proof.
  intros n s [NE N] E. destruct s as [|c s]; [contradiction|]. rewrite token_tl, tl_name by exact N. cbn [app].
  destruct n as [|x n]; [congruence|]. destruct E as [E|(-> & s2 & ->)].
  - exists {| inp := s; nxt := c |}. rewrite tl_delim by exact E. split; [reflexivity|now apply feq_delim].
  - exists {| inp := s2; nxt := "\" |}. split; reflexivity.
Qed.
Lemma name_not_space : forall n, okname n -> all_space n = false.
Proof.
  intros n [NE N]. destruct n as [|c n]; [congruence|]. apply Forall_cons_iff in N as [N _]. cbn.
  apply name_ordinary, ordinary_cases in N as [-> _]. reflexivity.
Qed.
Lemma name_ne : forall n x s, okname n -> namechar x = false -> n <> x :: s.
Proof. intros n x s [_ N] H ->. apply Forall_cons_iff in N as [N _]. congruence. Qed.

(** white space inside tags *)
Lemma skip_blank : forall w st s t st1, blank w -> feq st (w ++ s) -> token_no_eof (st0 s) = POk (t, st1) -> all_space t = false ->
  Ev (fun f => skip_ws f st) (t, st1).
Proof.
  induction w as [|c w IH]; intros st s t st1 B F E A; apply Ev_S.
  - cbn [app] in F. apply Ev_const. intros f. cbn [skip_ws]. rewrite F, E. cbn [pbind]. now rewrite A.
  - apply Forall_cons_iff in B as [B1 B2]. cbn [app] in F. unfold feq in F. rewrite token_delim in F by (now apply space_delim).
    eapply Ev_ext; [|exact (IH (st0 (w ++ s)) s t st1 B2 (feq_st0 _) E A)].
    intros f. cbn [skip_ws]. rewrite F. cbn [pbind]. cbn [all_space forallb]. now rewrite B1.
Qed.
Lemma attributes_blank : forall w st s sx cm r, blank w -> feq st (w ++ s) ->
  Ev (fun f => attributes f (st0 s) sx cm) r -> Ev (fun f => attributes f st sx cm) r.
Proof.
  induction w as [|c w IH]; intros st s sx cm r B F E.
  - cbn [app] in F. eapply Ev_ext; [|exact E]. intros [|f]; [reflexivity|]. cbn [attributes]. now rewrite F.
  - apply Forall_cons_iff in B as [B1 B2]. cbn [app] in F. unfold feq in F. rewrite token_delim in F by (now apply space_delim).
    apply Ev_S. eapply Ev_ext; [|exact (IH (st0 (w ++ s)) s sx cm r B2 (feq_st0 _) E)].
    intros f. cbn [attributes]. rewrite F. cbn [pbind].
    rewrite !beq_neq; [|intros C; injection C as ->; vm_compute in B1; discriminate|intros C; injection C as ->; vm_compute in B1; discriminate].
    cbn [all_space forallb]. now rewrite B1.
Qed.
Lemma blank_ends : forall w s, blank w -> ends s -> ends (w ++ s).
Proof.
  intros [|c w] s B E; [exact E|]. apply Forall_cons_iff in B as [B _]. left. now apply space_delim.
Qed.
Lemma token_value : forall q raw v s, q = "'"%char \/ q = """"%char -> quoted q raw v -> v <> [] ->
  token_no_eof (st0 (q :: raw ++ q :: s)) = POk (v, st0 s).
Proof.
  intros q raw v s HQ H NE. rewrite token_tl, tl_quote by exact HQ.
  rewrite (strlit_quoted q raw v H); [|lia|destruct HQ as [->| ->]; discriminate]. cbn [app]. now destruct v.
Qed.
Lemma not_blank : forall v, ~ blank v -> v <> [] /\ all_space v = false.
Proof.
  intros v H. split; [intros ->; apply H; constructor|].
  destruct (all_space v) eqn:E; [|reflexivity]. exfalso. apply H. unfold all_space in E. destruct v; [discriminate|].
  apply Forall_forall. rewrite forallb_forall in E. exact E.
Qed.

(** ** Attributes *)
Definition set_attr (sx : list ascii) (cm : cmap) (a : attr) : cmap := mset bcmp (sx ++ dot :: a_name a) (a_val a) cm.
Definition arec (sx : list ascii) (ats : list attr) (cm : cmap) : cmap := fold_left (set_attr sx) ats cm.
Definition tag_end (e : bool) : list ascii := if e then bs "/>" else bs ">".
Lemma attributes_ok : forall ats w e rest st sx cm, Forall okattr ats -> blank w ->
  feq st (concat (map rattr ats) ++ w ++ tag_end e ++ rest) ->
  Ev (fun f => attributes f st sx cm) (e, st0 rest, arec sx ats cm).
Proof.
  induction ats as [|a ats IH]; intros w e rest st sx cm HA HW F.
  - cbn [map concat app] in F. eapply attributes_blank; [exact HW|exact F|]. apply Ev_S, Ev_const. intros f. destruct e; reflexivity.
  - apply Forall_cons_iff in HA as [(NE & B0 & ON & B1 & B2 & HQ & HV & NB) HA]. apply not_blank in NB as [NV NS].
    cbn [map concat] in F. unfold rattr at 1 in F. rewrite <- !app_assoc in F.
    set (tail := concat (map rattr ats) ++ w ++ tag_end e ++ rest) in *.
    eapply attributes_blank; [exact B0|exact F|]. apply Ev_S.
    destruct (token_name_ends (a_name a) (a_ws1 a ++ bs "=" ++ a_ws2 a ++ [a_q a] ++ a_raw a ++ [a_q a] ++ tail) ON) as (st1 & E1 & F1).
    { apply blank_ends; [exact B1|]. now left. }
    eapply Ev_ext with (G := fun f => pbind (process_attribute f st1 (sx ++ dot :: a_name a) cm) (fun '(st2, cm2) => attributes f st2 sx cm2)).
    { intros f. cbn [attributes]. rewrite E1. cbn [pbind].
      rewrite !beq_neq by (now apply name_ne). now rewrite name_not_space. }
    apply Ev_bind with (a := (st0 tail, set_attr sx cm a)).
    + unfold process_attribute. eapply Ev_bind with (a := (bs "=", st0 (a_ws2 a ++ [a_q a] ++ a_raw a ++ [a_q a] ++ tail)))
        (k := fun f '(t, st2) => if beq t (bs "=") then pbind (skip_ws f st2) (fun '(t2, st3) => POk (st3, mset bcmp (sx ++ dot :: a_name a) t2 cm)) else PErr).
      * eapply skip_blank; [exact B1|exact F1|reflexivity|reflexivity].
      * change (beq (bs "=") (bs "=")) with true. cbn match.
        eapply Ev_bind with (a := (a_val a, st0 tail)) (k := fun f '(t2, st3) => POk (st3, mset bcmp (sx ++ dot :: a_name a) t2 cm)).
        -- eapply skip_blank; [exact B2|apply feq_st0| |exact NS]. now apply token_value.
        -- apply Ev_const. reflexivity.
    + cbn match. unfold arec. cbn [fold_left]. apply (IH w e); [exact HA|exact HW|apply feq_st0].
Qed.

(** ** Content *)
Definition handle (f : nat) (tok : list ascii) (st1 : tst) (sx ct : list ascii) (cm : cmap) (tc : tmap) : pres (list ascii * tst * cmap * tmap) :=
  if beq tok (bs "</") then POk (ct, st1, cm, tc)
  else if beq tok (bs "<") then
    '(name, st2) <= token_no_eof st1 ;;
    '(st3, cm, tc) <= pelem f st2 (sx ++ dot :: name) cm tc ;;
    pcont f st3 sx ct cm tc
  else pcont f st1 sx (ct ++ tok) cm tc.
Lemma pcont_S : forall f st sx ct cm tc,
  pcont (S f) st sx ct cm tc = pbind (token_no_eof st) (fun '(tok, st1) => handle f tok st1 sx ct cm tc).
Proof. reflexivity. Qed.

Notation cres := (list ascii * tst * cmap * tmap)%type.
(** the parser in the middle of a token *)
Definition Rm (tok s sx ct : list ascii) (cm : cmap) (tc : tmap) (r : cres) : Prop :=
  exists t i n, tl tok s = TTok t i n /\ t <> [] /\ Ev (fun f => handle f t {| inp := i; nxt := n |} sx ct cm tc) r.
Definition okt (tok : list ascii) : Prop := match tok with c :: _ => c <> "<"%char | [] => True end.
(** reading [s], when [acc] has been read as text, gives [r] *)
Definition Q (s sx acc : list ascii) (cm : cmap) (tc : tmap) (r : cres) : Prop :=
  forall tok ct, ct ++ tok = acc -> okt tok -> Rm tok s sx ct cm tc r.
Lemma Rm_pcont : forall s sx ct cm tc r, Rm [] s sx ct cm tc r -> Ev (fun f => pcont f (st0 s) sx ct cm tc) r.
Proof.
  intros s sx ct cm tc r (t & i & n & E & NE & H). apply Ev_S. eapply Ev_ext; [|exact H]. intros f.
  rewrite pcont_S, token_tl, E. destruct t; [congruence|reflexivity].
Qed.
Lemma Q_pcont : forall s sx acc cm tc r, Q s sx acc cm tc r -> Ev (fun f => pcont f (st0 s) sx acc cm tc) r.
Proof. intros s sx acc cm tc r H. apply Rm_pcont, H; [apply app_nil_r|exact I]. Qed.
Lemma okt_ne : forall tok, okt tok -> beq tok (bs "</") = false /\ beq tok (bs "<") = false.
Proof. intros tok H. split; apply beq_neq; intros ->; now apply H. Qed.
(** a token that ends here, with [u] as the next one *)
Lemma Rm_ret : forall c u tok S s sx ct cm tc r,
  tl tok S = retval c tok s -> c <> nul -> retval c [] s = TTok u s nul -> u <> [] -> okt u -> okt tok ->
  Q s sx (ct ++ tok ++ u) cm tc r -> Rm tok S sx ct cm tc r.
Proof.
  intros c u tok S s sx ct cm tc r E Nc Eu Nu Ou Ot H.
  assert (Hu : Ev (fun f => handle f u (st0 s) sx (ct ++ tok) cm tc) r).
  { eapply Ev_ext; [|apply Q_pcont; exact H]. intros f. unfold handle. destruct (okt_ne u Ou) as [-> ->]. now rewrite app_assoc. }
  destruct tok as [|x tok].
  - exists u, s, nul. rewrite E, Eu. rewrite app_nil_r in Hu. split; [reflexivity|]. split; [exact Nu|exact Hu].
  - exists (x :: tok), s, c. rewrite E. split; [reflexivity|]. split; [discriminate|].
    eapply Ev_ext with (G := fun f => pcont f {| inp := s; nxt := c |} sx (ct ++ x :: tok) cm tc).
    { intros f. unfold handle. destruct (okt_ne _ Ot) as [-> ->]. reflexivity. }
    apply Ev_S. eapply Ev_ext; [|exact Hu]. intros f. rewrite pcont_S. unfold token_no_eof, token. cbn [nxt inp].
    destruct (ascii_dec c nul); [contradiction|]. rewrite Eu. destruct u; [congruence|]. reflexivity.
Qed.
Lemma Rm_delim : forall c tok s sx ct cm tc r, delim c = true -> okt tok -> Q s sx (ct ++ tok ++ [c]) cm tc r ->
  Rm tok (c :: s) sx ct cm tc r.
Proof.
  intros c tok s sx ct cm tc r D O H. apply (Rm_ret c [c] tok (c :: s) s sx ct cm tc r); auto.
  - now apply tl_delim.
  - now apply delim_ne.
  - now apply retval_delim.
  - discriminate.
  - cbn. now apply delim_ne.
Qed.
Lemma Q_end : forall s sx acc cm tc, Q (bs "</" ++ s) sx acc cm tc (acc, st0 s, cm, tc).
Proof.
  intros s sx acc cm tc tok ct <- O. destruct tok as [|x tok].
  - exists (bs "</"), s, nul. split; [reflexivity|]. split; [discriminate|]. apply Ev_const. intros f. now rewrite app_nil_r.
  - exists (x :: tok), s, "/"%char. split; [reflexivity|]. split; [discriminate|].
    eapply Ev_ext with (G := fun f => pcont f {| inp := s; nxt := "/" |} sx (ct ++ x :: tok) cm tc).
    { intros f. unfold handle. destruct (okt_ne _ O) as [-> ->]. reflexivity. }
    apply Ev_S, Ev_const. intros f. reflexivity.
Qed.
Lemma okt_app : forall tok c, okt tok -> (c = "<"%char -> tok <> []) -> okt (tok ++ [c]).
Proof. intros [|x tok] c H N; cbn; [intros E; now apply N|exact H]. Qed.

(** text *)
Definition starts_lt (s : list ascii) : Prop := match s with c :: _ => c = "<"%char | [] => False end.
Lemma text_lit : forall c, textchar c = true -> delim c = false -> c <> "/"%char -> ordinary c = true.
Proof. intros [[] [] [] [] [] [] [] []] H D N; vm_compute in H, D |- *; try discriminate; try reflexivity. now destruct N. Qed.
Lemma Rm_text : forall k b raw v, length raw <= k -> spelt b raw v -> forall tok ct rest sx cm tc r,
  starts_lt rest -> okt tok -> (b = true -> tok <> []) -> Q rest sx (ct ++ tok ++ v) cm tc r ->
  Rm tok (raw ++ rest) sx ct cm tc r.
Proof.
  induction k as [|k IH]; intros b raw v L H tok ct rest sx cm tc r HL O NB HQ.
  - destruct raw; [|cbn in L; lia]. inversion H; subst. apply HQ; [now rewrite app_nil_r|exact O].
  - inversion H as [b'|b' c raw' v' T H'|b' rr c raw' v' HR HC H']; subst; clear H.
    + apply HQ; [now rewrite app_nil_r|exact O].
    + cbn [length] in L. cbn [app]. destruct (delim c) eqn:D; cbn [negb] in H'.
      * apply Rm_delim; [exact D|exact O|]. intros tok2 ct2 E2 O2. apply (IH false raw' v'); auto; [lia|discriminate|].
        rewrite app_assoc, E2, <- !app_assoc. exact HQ.
      * destruct (ascii_dec c "/") as [->|NS].
        -- destruct (raw' ++ rest) as [|c1 s1] eqn:ER.
           { apply app_eq_nil in ER as [_ ->]. contradiction. }
           destruct (ascii_dec c1 ">") as [->|N1].
           ++ (* "/>" in the text *)
              destruct raw' as [|c2 raw2]; [cbn in ER; subst rest; discriminate HL|]. cbn in ER. injection ER as -> <-.
              inversion H' as [|b' c raw' v2 T2 H2|b' rr c raw' v2 HR HC H2 E2]; subst.
              { apply (Rm_ret "\" (bs "/>") tok _ (raw2 ++ rest)); [reflexivity|discriminate|reflexivity|discriminate|cbn; discriminate|exact O|].
                 intros tok2 ct2 E2 O2. change (negb (delim ">")) with false in H2. cbn [length] in L.
                 apply (IH false raw2 v2); auto; [lia|discriminate|].
                 rewrite app_assoc, E2, <- !app_assoc. exact HQ. }
           ++ destruct (IH true raw' v' ltac:(lia) H' (tok ++ ["/"%char]) ct rest sx cm tc r HL) as (t & i & n & E & X).
              ** apply okt_app; [exact O|discriminate].
              ** intros _ C. now apply app_eq_nil in C as [_ C].
              ** rewrite <- !app_assoc. exact HQ.
              ** exists t, i, n. rewrite tl_slash by exact N1. rewrite <- ER. split; [exact E|exact X].
        -- assert (OC : ordinary c = true) by (now apply text_lit).
           destruct (IH true raw' v' ltac:(lia) H' (tok ++ [c]) ct rest sx cm tc r HL) as (t & i & n & E & X).
           ** apply okt_app; [exact O|]. intros ->. discriminate.
           ** intros _ C. now apply app_eq_nil in C as [_ C].
           ** rewrite <- !app_assoc. exact HQ.
           ** exists t, i, n. rewrite tl_char by exact OC. split; [exact E|exact X].
    + assert (L' : length raw' <= k) by (rewrite ref_app in L; cbn [length] in L; rewrite app_length in L; cbn [length] in L; lia).
      destruct (IH true raw' v' L' H' (tok ++ [c]) ct rest sx cm tc r HL) as (t & i & n & E & X).
      * apply okt_app; [exact O|]. intros EC. apply NB. now apply HC.
      * intros _ C. now apply app_eq_nil in C as [_ C].
      * rewrite <- !app_assoc. exact HQ.
      * exists t, i, n. rewrite <- app_assoc, (tl_ref rr c) by exact HR. split; [exact E|exact X].
Qed.
Lemma Q_text : forall raw v rest sx acc cm tc r, spelt false raw v -> starts_lt rest ->
  Q rest sx (acc ++ v) cm tc r -> Q (raw ++ rest) sx acc cm tc r.
Proof.
  intros raw v rest sx acc cm tc r H HL HQ tok ct <- O. eapply Rm_text; [reflexivity|exact H|exact HL|exact O|discriminate|].
  now rewrite app_assoc.
Qed.
(** CDATA *)
Lemma Q_cdata : forall s rest sx acc cm tc r, Forall (fun c => c <> "]"%char /\ c <> nul) s -> s <> bs "<" -> s <> bs "</" ->
  Q rest sx (acc ++ s) cm tc r -> Q (bs "<![CDATA[" ++ s ++ bs "]]>" ++ rest) sx acc cm tc r.
Proof.
  intros s rest sx acc cm tc r HS N1 N2 HQ tok ct <- O. rewrite <- app_assoc in HQ.
  destruct (tok ++ s) as [|x t] eqn:E.
  - rewrite app_nil_r in HQ. destruct (HQ [] ct (app_nil_r _) I) as (t & i & n & H). exists t, i, n.
    rewrite tl_cdata, E by exact HS. exact H.
  - exists (x :: t), rest, nul. rewrite tl_cdata, E by exact HS. split; [reflexivity|]. split; [discriminate|].
    eapply Ev_ext; [|apply Q_pcont; exact HQ]. intros f. unfold handle.
    rewrite !beq_neq; [reflexivity| |].
    + intros C. destruct tok as [|y tok]; [cbn in E; congruence|]. cbn in E. injection E as -> _. injection C as -> _. now apply O.
    + intros C. destruct tok as [|y tok]; [cbn in E; congruence|]. cbn in E. injection E as -> _. injection C as -> _. now apply O.
Qed.
(** comments and the like *)
Lemma Q_note : forall x s s' sx acc cm tc r, oknote x -> after x s = s' -> Q s' sx acc cm tc r -> Q (rnote x ++ s) sx acc cm tc r.
Proof.
  intros x s s' sx acc cm tc r HX <- HQ tok ct E O. destruct (HQ tok ct E O) as (t & i & n & H). exists t, i, n.
  now rewrite tl_note by exact HX.
Qed.
(** child elements *)
Lemma Q_elem : forall n A rest sx acc cm tc cm' tc' r, okname n -> ends A ->
  (forall st, feq st A -> Ev (fun f => pelem f st (sx ++ dot :: n) cm tc) (st0 rest, cm', tc')) ->
  Q rest sx acc cm' tc' r -> Q (bs "<" ++ n ++ A) sx acc cm tc r.
Proof.
  intros n A rest sx acc cm tc cm' tc' r ON EA HE HQ tok ct <- O.
  assert (H : Ev (fun f => handle f (bs "<") (st0 (n ++ A)) sx (ct ++ tok) cm tc) r).
  { destruct (token_name_ends n A ON EA) as (st & E & F).
    eapply Ev_ext with (G := fun f => pbind (pelem f st (sx ++ dot :: n) cm tc) (fun '(st3, cm, tc) => pcont f st3 sx (ct ++ tok) cm tc)).
    { intros f. unfold handle. cbn [beq]. rewrite E. reflexivity. }
    eapply Ev_bind with (k := fun f '(st3, cm, tc) => pcont f st3 sx (ct ++ tok) cm tc); [apply HE, F|]. cbn match.
    apply Q_pcont, HQ. }
  destruct n as [|x n]; [now destruct ON|]. assert (Nx : namechar x = true) by (destruct ON as [_ ON]; now apply Forall_cons_iff in ON as [ON _]).
  change (bs "<" ++ (x :: n) ++ A) with ("<" :: x :: n ++ A)%char. unfold Rm. rewrite tl_open by exact Nx.
  destruct tok as [|y tok].
  - exists (bs "<"), (x :: n ++ A), nul. split; [reflexivity|]. split; [discriminate|]. rewrite app_nil_r in H. exact H.
  - exists (y :: tok), (x :: n ++ A), "<"%char. split; [reflexivity|]. split; [discriminate|].
    eapply Ev_ext with (G := fun f => pcont f {| inp := x :: n ++ A; nxt := "<" |} sx (ct ++ y :: tok) cm tc).
    { intros f. unfold handle. destruct (okt_ne _ O) as [-> ->]. reflexivity. }
    apply Ev_S. exact H.
Qed.

(** ** What is recorded, on the maps themselves *)
Definition iname (t : item) : list ascii := match t with IElem n _ _ _ _ _ => n | _ => [] end.
Definition is_el (t : item) : bool := match t with IElem _ _ _ _ _ _ => true | _ => false end.
Fixpoint erec (scope : list ascii) (t : item) (cm : cmap) (tc : tmap) : cmap * tmap :=
  match t with
  | IElem n ats _ _ l _ =>
      let k := cnt tc scope in
      let sx := idx scope k in
      let '(cm', tc') :=
        (fix go (l : list item) (cm : cmap) (tc : tmap) : cmap * tmap :=
           match l with
           | [] => (cm, tc)
           | t :: l' => let '(cm, tc) := erec (sx ++ dot :: iname t) t cm tc in go l' cm tc
           end) l (arec sx ats cm) (mset bcmp scope (k + 1)%N tc) in
      (put sx (concat (map itext l)) cm', tc')
  | _ => (cm, tc)
  end.
Fixpoint erecs (sx : list ascii) (l : list item) (cm : cmap) (tc : tmap) : cmap * tmap :=
  match l with
  | [] => (cm, tc)
  | t :: l' => let '(cm, tc) := erec (sx ++ dot :: iname t) t cm tc in erecs sx l' cm tc
  end.
Lemma erec_el : forall scope n ats w e l w' cm tc, erec scope (IElem n ats w e l w') cm tc =
  let k := cnt tc scope in let sx := idx scope k in
  let '(cm', tc') := erecs sx l (arec sx ats cm) (mset bcmp scope (k + 1)%N tc) in (put sx (concat (map itext l)) cm', tc').
Proof.
  intros. cbn [erec]. cbv zeta. generalize (idx scope (cnt tc scope)). intros sx.
  generalize (arec sx ats cm) (mset bcmp scope (cnt tc scope + 1)%N tc).
  assert (X : forall cm tc, (fix go (l : list item) (cm : cmap) (tc : tmap) : cmap * tmap :=
           match l with
           | [] => (cm, tc)
           | t :: l' => let '(cm, tc) := erec (sx ++ dot :: iname t) t cm tc in go l' cm tc
           end) l cm tc = erecs sx l cm tc).
  { induction l as [|t l IH]; intros cm0 tc0; [reflexivity|]. cbn [erecs]. destruct (erec (sx ++ dot :: iname t) t cm0 tc0). apply IH. }
  intros c t. now rewrite X.
Qed.
Section Ind.
Variable P : item -> Prop.
Hypothesis HT : forall raw v, P (IText raw v).
Hypothesis HC : forall s, P (ICdata s).
Hypothesis HN : forall x w, P (INote x w).
Hypothesis HE : forall n ats w e l w', Forall P l -> P (IElem n ats w e l w').
Fixpoint item_ind2 (t : item) : P t :=
  match t with
  | IText raw v => HT raw v
  | ICdata s => HC s
  | INote x w => HN x w
  | IElem n ats w e l w' => HE n ats w e l w' ((fix all (l : list item) : Forall P l :=
      match l with [] => Forall_nil _ | k :: l' => Forall_cons k (item_ind2 k) (all l') end) l)
  end.
End Ind.
Lemma okitem_el : forall n ats w e l w', okitem (IElem n ats w e l w') <->
  okname n /\ Forall okattr ats /\ blank w /\ blank w' /\ (e = true -> l = []) /\ okitems l.
Proof. intros. reflexivity. Qed.
(** an element after its name *)
Definition etail (t : item) : list ascii :=
  match t with
  | IElem n ats w e l w' => concat (map rattr ats) ++ w ++
      (if e then bs "/>" else bs ">" ++ concat (map ritem l) ++ bs "</" ++ n ++ w' ++ bs ">")
  | _ => []
  end.
Definition Pe (t : item) : Prop := is_el t = true -> okitem t -> forall scope cm tc st rest,
  ends_with scope (iname t) -> feq st (etail t ++ rest) ->
  Ev (fun f => pelem f st scope cm tc) (st0 rest, fst (erec scope t cm tc), snd (erec scope t cm tc)).
Lemma rattr_ends : forall a s, okattr a -> ends (rattr a ++ s).
Proof.
  intros a s (NE & B & _). unfold rattr. rewrite <- !app_assoc. destruct (a_ws a) as [|c w]; [congruence|].
  apply Forall_cons_iff in B as [B _]. left. now apply space_delim.
Qed.
Lemma etail_ends : forall t s, is_el t = true -> okitem t -> ends (etail t ++ s).
Proof.
  intros [raw v|u|x w|n ats w e l w'] s H O; try discriminate. apply okitem_el in O as (_ & HA & HW & _). cbn [etail].
  destruct ats as [|a ats].
  - cbn [map concat app]. rewrite <- app_assoc. apply blank_ends; [exact HW|]. destruct e; cbn; [right; eauto|now left].
  - apply Forall_cons_iff in HA as [HA _]. cbn [map concat]. rewrite <- !app_assoc. now apply rattr_ends.
Qed.
Lemma ritem_lt : forall t, okitem t -> is_el t = true -> ritem t = bs "<" ++ iname t ++ etail t.
Proof. intros [| | |n ats w e l w'] O H; try discriminate. reflexivity. Qed.
Lemma item_lt : forall t s, match t with IText _ _ => False | _ => True end -> starts_lt (ritem t ++ s).
Proof. intros [|u|x w|n ats w e l w'] s H; [contradiction|reflexivity| |reflexivity]. destruct x; reflexivity. Qed.
Lemma items_ok : forall l, Forall Pe l -> okitems l -> forall sx acc cm tc rest r,
  starts_lt rest -> Q rest sx (acc ++ concat (map itext l)) (fst (erecs sx l cm tc)) (snd (erecs sx l cm tc)) r ->
  Q (concat (map ritem l) ++ rest) sx acc cm tc r.
Proof.
  induction l as [|t l IH]; intros HP HO sx acc cm tc rest r HL HQ.
  - cbn [map concat app erecs fst snd] in *. rewrite app_nil_r in HQ. exact HQ.
  - apply Forall_cons_iff in HP as [HP HPl]. destruct HO as (HO & HA & HOl).
    cbn [map concat] in *. rewrite <- app_assoc.
    set (rest' := concat (map ritem l) ++ rest) in *. cbn [erecs] in HQ.
    destruct t as [raw v|s|x w|n ats w e l0 w'].
    + cbn [erec itext] in HQ. cbn [ritem]. apply (Q_text raw v); [exact HO| |].
      * unfold rest'. destruct l as [|t2 l]; [exact HL|]. cbn [map concat]. rewrite <- app_assoc. apply item_lt. now destruct t2.
      * apply IH; auto. rewrite <- app_assoc. exact HQ.
    + cbn [erec itext] in HQ. destruct HO as (H1 & H2 & H3). cbn [ritem]. rewrite <- !app_assoc. apply Q_cdata; auto.
      apply IH; auto. rewrite <- app_assoc. exact HQ.
    + cbn [erec itext app] in HQ. destruct HO as (H1 & H2 & H3). cbn [ritem]. rewrite <- app_assoc.
      apply (Q_note x (w ++ rest') rest'); [exact H1| |apply IH; auto].
      assert (G : match x with NShort _ => True | _ => gobble_ws rest' = rest' end).
      { destruct x; [exact I| |]; (unfold rest'; destruct l as [|t2 l];
          [destruct rest as [|c rest]; [contradiction|]; cbn in HL; subst c; reflexivity|]; cbn [map concat]; rewrite <- app_assoc;
          destruct t2 as [raw v|s2|x2 w2|n2 a2 b2 e2 l2 w2]; [|reflexivity|destruct x2; reflexivity|reflexivity];
          cbn [apart] in HA; cbn [ritem]; destruct raw as [|c raw]; [contradiction|]; cbn [app gobble_ws]; now rewrite HA). }
      destruct x as [h|h b|b]; cbn [after].
      * now subst w.
      * rewrite gobble_blank by exact H2. exact G.
      * rewrite gobble_blank by exact H2. exact G.
    + set (t := IElem n ats w e l0 w') in *.
      change (ritem t) with (bs "<" ++ n ++ etail t). rewrite <- !app_assoc.
      destruct (erec (sx ++ dot :: iname t) t cm tc) as [cm1 tc1] eqn:E.
      eapply (Q_elem n (etail t ++ rest') rest' sx acc cm tc cm1 tc1).
      * exact (proj1 HO).
      * now apply etail_ends.
      * intros st F. specialize (HP eq_refl HO (sx ++ dot :: n) cm tc st rest').
        change (iname t) with n in *. rewrite E in HP. apply HP; [|exact F]. exists (sx ++ [dot]). now rewrite <- app_assoc.
      * apply IH; auto.
Qed.
Lemma skip_gt_blank : forall w st s, blank w -> feq st (w ++ ">"%char :: s) ->
  forall t, beq t (bs ">") = false -> Ev (fun f => skip_to_gt f t st) (st0 s).
Proof.
  induction w as [|c w IH]; intros st s B F t N; apply Ev_S.
  - eapply Ev_const. intros f. cbn [skip_to_gt]. rewrite N, F. change (token_no_eof (st0 ([] ++ ">"%char :: s))) with (POk ([">"%char], st0 s)).
    cbn [pbind]. now destruct f.
  - apply Forall_cons_iff in B as [B1 B2]. cbn [app] in F. unfold feq in F. rewrite token_delim in F by (now apply space_delim).
    eapply Ev_ext; [|apply (IH (st0 (w ++ ">"%char :: s)) s B2 (feq_st0 _) [c])].
    + intros f. cbn [skip_to_gt]. rewrite N, F. reflexivity.
    + apply beq_neq. intros C. injection C as ->. vm_compute in B1. discriminate.
Qed.
Definition after_content (f : nat) (scope sx : list ascii) (x : cres) : pres (tst * cmap * tmap) :=
  let '(content, st2, cm, tc) := x in
  pbind (token_no_eof st2) (fun y => let '(tok, st3) := y in
    if endtag_ok scope tok then pbind (skip_to_gt f tok st3) (fun st4 => POk (st4, put sx content cm, tc)) else PErr).
Definition after_tag (f : nat) (scope sx : list ascii) (tc : tmap) (x : bool * tst * cmap) : pres (tst * cmap * tmap) :=
  let '(e, st1, cm) := x in
  if e then POk (st1, cm, tc) else pbind (pcont f st1 sx [] cm tc) (after_content f scope sx).
Theorem pelem_ok : forall t, Pe t.
Proof.
  apply item_ind2; try (intros; intros H; discriminate H).
  intros n ats w e l w' IH _ O scope cm tc st rest EW F. apply okitem_el in O as (ON & HA & HW & HW' & HE & HL).
  rewrite erec_el. cbv zeta. set (sx := idx scope (cnt tc scope)). set (tc1 := mset bcmp scope (cnt tc scope + 1)%N tc).
  cbn [etail iname] in *. rewrite <- !app_assoc in F. apply Ev_S.
  set (rest1 := if e then rest else concat (map ritem l) ++ bs "</" ++ n ++ w' ++ bs ">" ++ rest).
  assert (EA : Ev (fun f => attributes f st sx cm) (e, st0 rest1, arec sx ats cm)).
  { apply (attributes_ok ats w e rest1); [exact HA|exact HW|]. unfold rest1, tag_end. destruct e; [exact F|]. now rewrite <- !app_assoc in F. }
  destruct (erecs sx l (arec sx ats cm) tc1) as [cm2 tc2] eqn:ER.
  eapply Ev_ext with (G := fun f => pbind (attributes f st sx cm) (after_tag f scope sx tc1)); [reflexivity|].
  eapply Ev_bind; [exact EA|].
  cbn [after_tag]. destruct e.
  - rewrite (HE eq_refl) in *. cbn [erecs] in ER. injection ER as <- <-. apply Ev_const. reflexivity.
  - set (A := w' ++ bs ">" ++ rest).
    assert (EC : Ev (fun f => pcont f (st0 rest1) sx [] (arec sx ats cm) tc1) (concat (map itext l), st0 (n ++ A), cm2, tc2)).
    { apply Q_pcont. unfold rest1. apply items_ok; [exact IH|exact HL|reflexivity|]. rewrite ER. cbn [fst snd app]. apply Q_end. }
    eapply Ev_ext with (G := fun f => pbind (pcont f (st0 rest1) sx [] (arec sx ats cm) tc1) (after_content f scope sx)); [reflexivity|].
    eapply Ev_bind; [exact EC|]. unfold after_content.
    destruct (token_name_ends n A ON) as (st3 & E3 & F3).
    { unfold A. apply blank_ends; [exact HW'|]. now left. }
    rewrite E3. cbn [pbind]. destruct EW as [p ->]. rewrite endtag_suffix by apply ON.
    eapply Ev_bind with (k := fun f st4 => POk (st4, put sx (concat (map itext l)) cm2, tc2)).
    + unfold A in F3. eapply skip_gt_blank; [exact HW'|exact F3|]. apply beq_neq. now apply name_ne.
    + apply Ev_const. intros f. reflexivity.
Qed.

(** ** The document *)
Lemma skip_ws0_mono : forall f f' st, f <= f' -> skip_ws0 f st <> TFuel -> skip_ws0 f' st = skip_ws0 f st.
Proof.
  induction f as [|f IH]; intros f' st L H; [now destruct H|]. destruct f' as [|f']; [lia|]. cbn [skip_ws0] in *.
  destruct (token st) as [t i n| |]; [|reflexivity|now destruct H]. destruct (all_space t); [apply IH; [lia|exact H]|reflexivity].
Qed.
Definition Sk (s : list ascii) (r : tres) : Prop := exists f0, forall f, f0 <= f -> skip_ws0 f (st0 s) = r.
Lemma Sk_space : forall c s r, isspace c = true -> Sk (c :: s) r <-> Sk s r.
Proof.
  intros c s r H.
  assert (E : forall f, skip_ws0 (S f) (st0 (c :: s)) = skip_ws0 f (st0 s)).
  { intros f. cbn [skip_ws0]. change (token (st0 (c :: s))) with (tl [] (c :: s)).
    rewrite tl_space, retval_delim by (exact H || now apply space_delim). cbn [all_space forallb]. now rewrite H. }
  split; intros [f0 HS].
  - exists f0. intros f L. rewrite <- E. apply HS. lia.
  - exists (S f0). intros [|f] L; [lia|]. rewrite E. apply HS. lia.
Qed.
Lemma Sk_gobble : forall s r, Sk s r -> Sk (gobble_ws s) r.
Proof.
  induction s as [|c s IH]; intros r H; [exact H|]. cbn [gobble_ws]. destruct (isspace c) eqn:E; [|exact H].
  apply IH. exact (proj1 (Sk_space c s r E) H).
Qed.
Lemma Sk_note : forall x s r, oknote x -> Sk s r -> Sk (rnote x ++ s) r.
Proof.
  intros x s r HX H.
  assert (H' : Sk (after x s) r) by (destruct x; [exact H|now apply Sk_gobble|now apply Sk_gobble]).
  destruct H' as [f0 H']. exists f0. intros f L. rewrite <- H' with (f := f) by exact L. destruct f as [|f]; [reflexivity|].
  cbn [skip_ws0]. change (token (st0 (rnote x ++ s))) with (tl [] (rnote x ++ s)). rewrite tl_note by exact HX. reflexivity.
Qed.
Lemma skip_pro : forall ps n s, Forall okpro ps -> okname n ->
  Sk (concat (map rpro ps) ++ bs "<" ++ n ++ s) (TTok (bs "<") (n ++ s) nul).
Proof.
  induction ps as [|p ps IH]; intros n s HP ON.
  - exists 1. intros [|f] L; [lia|]. destruct n as [|c n]; [now destruct ON|]. cbn [map concat app skip_ws0].
    change (token (st0 (bs "<" ++ c :: n ++ s))) with (tl [] ("<" :: c :: n ++ s)%char). rewrite tl_open; [reflexivity|].
    destruct ON as [_ ON]. now apply Forall_cons_iff in ON as [ON _].
  - apply Forall_cons_iff in HP as [H1 H2]. specialize (IH n s H2 ON). cbn [map concat]. rewrite <- app_assoc.
    destruct p as [w|x]; cbn [rpro okpro] in *.
    + induction w as [|c w IHw]; [exact IH|]. apply Forall_cons_iff in H1 as [H0 H1]. cbn [app]. apply Sk_space; [exact H0|].
      apply IHw, H1.
    + now apply Sk_note.
Qed.
Theorem parse_item : forall ps t rest, Forall okpro ps -> is_el t = true -> okitem t ->
  parse (concat (map rpro ps) ++ ritem t ++ rest) [] [] = POk (erec (iname t) t [] []).
Proof.
  intros ps t rest HP HT HO. rewrite ritem_lt by assumption. rewrite <- !app_assoc.
  assert (ON : okname (iname t)) by (destruct t; try discriminate; exact (proj1 HO)).
  destruct (skip_pro ps (iname t) (etail t ++ rest) HP ON) as [f1 H1].
  set (s := concat (map rpro ps) ++ bs "<" ++ iname t ++ etail t ++ rest) in *.
  pose proof (parse_fine s [] []) as PF. unfold parse in *.
  assert (N1 : skip_ws0 (fuel_for s) {| inp := s; nxt := nul |} <> TFuel) by (intros E; rewrite E in PF; now apply PF).
  pose proof (skip_ws0_mono (fuel_for s) (fuel_for s + f1) (st0 s) ltac:(lia) N1) as M1.
  rewrite H1 in M1 by lia. change {| inp := s; nxt := nul |} with (st0 s) in *. rewrite <- M1 in *.
  change (beq (bs "<") (bs "<")) with true in *. cbn match in *.
  destruct (token_name_ends (iname t) (etail t ++ rest) ON (etail_ends t rest HT HO)) as (st & E & F).
  change {| inp := iname t ++ etail t ++ rest; nxt := nul |} with (st0 (iname t ++ etail t ++ rest)) in *.
  cbn [bs list_ascii_of_string] in *. rewrite E in *. cbn [pbind] in *.
  destruct (pelem_ok t HT HO (iname t) [] [] st rest ltac:(now exists []) F) as [f2 H2].
  match type of PF with pbind ?q _ <> _ => assert (N2 : q <> PFuel) by (intros C; rewrite C in PF; now apply PF) end.
  pose proof (proj1 (pelem_pcont_mono (fuel_for s)) (fuel_for s + f2) st (iname t) [] [] ltac:(lia) N2) as M2.
  rewrite H2 in M2 by lia. rewrite <- M2. cbn [pbind]. now destruct (erec (iname t) t [] []).
Qed.

(** * What the generator prints: C75 to C80 *)
From Verif Require Import Base Base_Proofs SMap Dec Desc_Model Tok_Model Parse_Model Parse_Props Ns_Props ClassParse_Model ClassParse_Spec ClassParse_Props Gen_Model GenPP_Props.
From Coq Require Import Sorted.

(** ** C75: the classes that are only declared *)
(** [n] is the last component of the name [q] *)
Definition ends_in (q n : tok) : Prop := q = n \/ exists p, q = p ++ bs "::" ++ n.
Lemma rfind2_some l : forall p, rfind2 l = Some p -> l = firstn p l ++ bs "::" ++ skipn (p + 2) l.
Proof.
  induction l as [|c l IH]; intros p H; cbn [rfind2] in H; [discriminate|]. destruct (rfind2 l) as [n|].
  - injection H as <-. cbn [firstn app Nat.add skipn]. f_equal. now apply IH.
  - destruct (starts (bs "::") (c :: l)) eqn:E; [|discriminate]. injection H as <-. apply startsP in E. destruct E as (r & E). rewrite E. reflexivity.
Qed.
Lemma last_name_iff q n : ~ In ":"%char n -> (last_name q = n <-> ends_in q n).
Proof.
  intros C. unfold last_name, ends_in. split.
  - destruct (rfind2 q) as [p|] eqn:E; [|auto]. intros H. right. exists (firstn p q). rewrite <- H. now apply rfind2_some.
  - intros [->|(p & ->)].
    + now rewrite rfind2_none.
    + rewrite rfind2_last, (rfind2_colon _ C). rewrite app_assoc. replace (length p + 2)%nat with (length (p ++ bs "::")) by now rewrite app_length.
      now rewrite skipn_app, skipn_all, Nat.sub_diag.
Qed.
Lemma has_lt_iff n : has_lt n = true <-> In "<"%char n.
Proof.
  unfold has_lt. rewrite existsb_exists. split.
  - intros (x & I & E). unfold ceq in E. apply Ascii.eqb_eq in E. now subst.
  - intros I. exists "<"%char. split; [exact I|reflexivity].
Qed.
Section Types.
  (** what the table says of a name *)
  Definition state (l : list (bool * tok)) (n : tok) : option bool :=
    if existsb (fun c => fst c && beq (snd c) n)%bool l then Some true
    else if existsb (fun c => negb (fst c) && beq (last_name (snd c)) n && negb (has_lt n))%bool l then Some false
    else None.
  Lemma type_find l n : mfind bcmp n (type_map l) = state l n.
  Proof.
    unfold type_map. rewrite <- (rev_involutive l). rewrite <- fold_left_rev_right. rewrite rev_involutive.
    set (r := rev l). assert (E : forall f : bool * tok -> bool, existsb f (rev r) = existsb f r).
    { intros f. apply Bool.eq_true_iff_eq. rewrite !existsb_exists. split; intros (x & I & X); exists x; [apply in_rev in I|apply -> in_rev in I]; auto. }
    unfold state. rewrite !E. clear E. induction r as [|(b, q) r IH]; [reflexivity|]. cbn [fold_right existsb fst snd]. set (m := fold_right _ [] r) in *.
    unfold type_step. cbn [fst snd]. destruct b.
    - cbn [negb andb orb]. destruct (beq q n) eqn:B; cbn [orb].
      + apply beq_eq in B. subst. now rewrite (mfind_mset_same bcmp bcmp_eq).
      + rewrite (mfind_mset_other bcmp bcmp_eq); [exact IH|]. intros ->. now rewrite beq_refl in B.
    - cbn [andb orb negb]. destruct (has_lt (last_name q)) eqn:HL.
      + rewrite IH. destruct (beq (last_name q) n) eqn:B; [|reflexivity]. apply beq_eq in B. subst n. rewrite HL. cbn [negb andb orb]. rewrite HL in IH. reflexivity.
      + destruct (beq (last_name q) n) eqn:B.
        * apply beq_eq in B. subst n. rewrite HL. cbn [negb andb orb]. rewrite HL in IH. cbn [negb] in IH. destruct (existsb _ r).
          -- now rewrite IH.
          -- destruct (existsb _ r); rewrite IH; now rewrite (mfind_mset_same bcmp bcmp_eq).
        * cbn [andb orb]. destruct (mfind bcmp (last_name q) m) as [[]|]; [exact IH| |]; rewrite (mfind_mset_other bcmp bcmp_eq); try exact IH; intros ->; now rewrite beq_refl in B.
  Qed.
End Types.
Lemma mfind_in {V} n (v : V) m : NoDup (map fst m) -> (mfind bcmp n m = Some v <-> In (n, v) m).
Proof.
  induction m as [|(k, w) m IH]; intros N; cbn [mfind In]; [split; [discriminate|tauto]|]. inversion N; subst. destruct (bcmp n k) eqn:E.
  - apply bcmp_eq in E. subst k. split; [intros [= ->]; auto|]. intros [[= ->]|X]; [reflexivity|]. exfalso. apply H1. now apply (in_map fst) in X.
  - rewrite IH by assumption. split; [auto|]. intros [[= -> ->]|X]; [|exact X]. rewrite (proj2 (bcmp_eq n n) eq_refl) in E. discriminate.
  - rewrite IH by assumption. split; [auto|]. intros [[= -> ->]|X]; [|exact X]. rewrite (proj2 (bcmp_eq n n) eq_refl) in E. discriminate.
Qed.
Lemma keys_replace {V} k (v : V) m : map fst (mreplace bcmp k v m) = map fst m.
Proof. induction m as [|(k0, v0) m IH]; cbn [mreplace map]; [reflexivity|]. destruct (bcmp k k0) eqn:E; cbn [map fst]; congruence. Qed.
Lemma keys_insert {V} k (v : V) m x : In x (map fst (minsert bcmp k v m)) -> x = k \/ In x (map fst m).
Proof.
  induction m as [|(k0, v0) m IH]; cbn [minsert map In fst]; [intuition congruence|]. destruct (bcmp k k0); cbn [map In fst]; intuition (subst; auto).
Qed.
Lemma nodup_set {V} k (v : V) m : NoDup (map fst m) -> NoDup (map fst (mset bcmp k v m)).
Proof.
  intros N. unfold mset. destruct (mfind bcmp k m) eqn:E; [now rewrite keys_replace|].
  induction m as [|(k0, v0) m IH]; cbn [minsert map fst]; [repeat constructor; intros []|]. cbn [mfind] in E. inversion N; subst. destruct (bcmp k k0) eqn:C; [discriminate| |].
  - cbn [map fst]. constructor; [|exact N]. intros X. cbn [In] in X. destruct X as [->|X].
    + rewrite (proj2 (bcmp_eq k k) eq_refl) in C. discriminate.
    + clear - E X. induction m as [|(a, b) m IH]; [destruct X|]. cbn [mfind map In fst] in *. destruct X as [<-|X].
      * now rewrite (proj2 (bcmp_eq a a) eq_refl) in E.
      * destruct (bcmp k a); [discriminate|auto..].
  - cbn [map fst]. constructor; [|auto]. intros X. apply keys_insert in X. destruct X as [->|X]; [|contradiction].
    rewrite (proj2 (bcmp_eq k k) eq_refl) in C. discriminate.
Qed.
Lemma type_nodup l : NoDup (map fst (type_map l)).
Proof.
  unfold type_map. rewrite <- (rev_involutive l), <- fold_left_rev_right, rev_involutive. induction (rev l) as [|(b, q) r IH]; cbn [fold_right]; [constructor|].
  unfold type_step. cbn [fst snd]. destruct b; [now apply nodup_set|]. destruct (has_lt _); [exact IH|]. destruct (mfind _ _ _) as [[]|]; [exact IH|now apply nodup_set..].
Qed.
Lemma nodup_map_filter {A B} (f : A -> B) p l : NoDup (map f l) -> NoDup (map f (filter p l)).
Proof.
  induction l as [|a l IH]; cbn [map filter]; [auto|]. intros N. inversion N; subst. destruct (p a); cbn [map]; [constructor; [|auto]|auto].
  intros X. apply H1. apply in_map_iff in X. destruct X as (b & E & I). apply filter_In in I. rewrite <- E. apply in_map. tauto.
Qed.
Definition empty_class (n : tok) : tok := bs "class " ++ n ++ bs " {};".
Lemma empty_inj a b : empty_class a = empty_class b -> a = b.
Proof. unfold empty_class. intros H. apply app_inv_head in H. now apply app_inv_tail in H. Qed.
Theorem C75_dummies : forall l n, ~ In ":"%char n ->
  (In (empty_class n) (dummies l) <-> (exists q, In (false, q) l /\ ends_in q n) /\ ~ In "<"%char n /\ ~ In (true, n) l).
Proof.
  intros l n C. unfold dummies. rewrite in_map_iff. transitivity (mfind bcmp n (type_map l) = Some false).
  - rewrite (mfind_in _ _ _ (type_nodup l)). split.
    + intros ((m, b) & E & I). apply filter_In in I. destruct I as (I & B). cbn [fst snd] in *. destruct b; [discriminate|]. apply empty_inj in E. now subst.
    + intros I. exists (n, false). split; [reflexivity|]. apply filter_In. auto.
  - rewrite type_find. unfold state. destruct (existsb (fun c => fst c && beq (snd c) n)%bool l) eqn:E1.
    + split; [discriminate|]. intros (_ & _ & N). exfalso. apply N. apply existsb_exists in E1. destruct E1 as ((b, q) & I & X). cbn [fst snd] in X.
      apply andb_prop in X. destruct X as (-> & X). apply beq_eq in X. now subst.
    + assert (NT : ~ In (true, n) l). { intros X. rewrite <- Bool.not_true_iff_false in E1. apply E1. apply existsb_exists. exists (true, n). split; [exact X|]. cbn. apply beq_refl. }
      destruct (existsb (fun c => negb (fst c) && beq (last_name (snd c)) n && negb (has_lt n))%bool l) eqn:E2.
      * split; [intros _|reflexivity]. apply existsb_exists in E2. destruct E2 as ((b, q) & I & X). cbn [fst snd] in X. apply andb_prop in X. destruct X as (X & HL).
        apply andb_prop in X. destruct X as (B & X). destruct b; [discriminate|]. apply beq_eq in X. split; [exists q; split; [exact I|now apply last_name_iff]|].
        split; [|exact NT]. rewrite <- has_lt_iff. destruct (has_lt n); [discriminate|congruence].
      * split; [discriminate|]. intros ((q & I & EQ) & NL & _). exfalso. rewrite <- Bool.not_true_iff_false in E2. apply E2. apply existsb_exists. exists (false, q). split; [exact I|].
        cbn [fst snd negb andb]. apply last_name_iff in EQ; [|exact C]. rewrite EQ, beq_refl. rewrite <- has_lt_iff in NL. destruct (has_lt n); [congruence|reflexivity].
Qed.
Print Assumptions C75_dummies.
Theorem C75_once : forall l, NoDup (dummies l).
Proof.
  intros l. unfold dummies. pose proof (nodup_map_filter fst (fun p => negb (snd p)) _ (type_nodup l)) as N.
  induction (filter _ _) as [|p r IH]; cbn [map] in *; [constructor|]. inversion N; subst. constructor; [|auto].
  intros X. apply in_map_iff in X. destruct X as (q & E & I). apply empty_inj in E. apply H1. rewrite <- E. now apply in_map.
Qed.
Print Assumptions C75_once.
(** in the output; -nodef leaves them out *)
Theorem C75_printed : forall c g ks n, ~ In ":"%char n ->
  (In (empty_class n) (head_lines c g ks) <-> c_def c = true /\ (exists q, In (false, q) (g_types g) /\ ends_in q n) /\ ~ In "<"%char n /\ ~ In (true, n) (g_types g)).
Proof.
  intros c g ks n C. rewrite <- C75_dummies by exact C. unfold head_lines. rewrite !in_app_iff. split.
  - intros [X|[X|[X|[X|[X|X]]]]].
    + repeat destruct X as [X|X]; discriminate X || destruct X.
    + repeat destruct X as [X|X]; discriminate X || destruct X.
    + destruct (c_def c); [auto|destruct X].
    + apply in_map_iff in X. destruct X as (k & X & _). discriminate X.
    + destruct ks as [|k ks]; [destruct X|]. unfold in_ns in X. cbn [In] in X. destruct X as [X|X]; [discriminate X|]. apply in_app_or in X. destruct X as [X|[X|[]]]; [|discriminate X].
      apply in_concat in X. destruct X as (y & Y & X). apply in_map_iff in Y. destruct Y as (z & <- & _). destruct X as [X|[X|[]]]; discriminate X.
    + apply in_map_iff in X. destruct X as (k & X & _). discriminate X.
  - intros (D & X). rewrite D. auto.
Qed.
Print Assumptions C75_printed.
Example C75_ex : In (empty_class (bs "F")) (dummies [(false, bs "G"); (true, bs "G"); (false, bs "N::F"); (false, bs "F"); (false, bs "H<int>")])
  /\ length (dummies [(false, bs "G"); (true, bs "G"); (false, bs "N::F"); (false, bs "F"); (false, bs "H<int>")]) = 1%nat.
Proof. split; [left|]; vm_compute; reflexivity. Qed.
(** a definition is recorded with its namespaces, a declaration without: a class that is declared
    and then defined gets a second, empty definition *)
Theorem C75_defined_refuted : exists g, of_text plain_opts "class F; class F {public: int x;}; " = Some g
  /\ map x_type (g_actions g) = [bs "class ::F"] /\ In (empty_class (bs "F")) (dummies (g_types g)).
Proof. eexists. split; [vm_compute; reflexivity|]. split; [reflexivity|]. vm_compute. auto. Qed.
(** a specialisation that is only declared gets a definition with no meaning *)
Theorem C75_specialisation_refuted : exists g, of_text plain_opts "template <> class A<B::C>; " = Some g /\ map shown (dummies (g_types g)) = ["class  C >  {};"%string].
Proof. eexists. split; vm_compute; reflexivity. Qed.

(** ** C76: the types nested in a scope *)
(** a scope as a list of names *)
Definition path (ws : list tok) : tok := concat (map (fun w => bs "::" ++ w) ws).
Lemma path_app a b : path (a ++ b) = path a ++ path b.
Proof. unfold path. now rewrite map_app, concat_app. Qed.
Lemma path_last ws w : ~ In ":"%char w -> rfind2 (path (ws ++ [w])) = Some (length (path ws)) /\ firstn (length (path ws)) (path (ws ++ [w])) = path ws.
Proof.
  intros C. rewrite path_app. cbn [path map concat]. rewrite app_nil_r. split.
  - rewrite rfind2_last, (rfind2_colon _ C). reflexivity.
  - unfold path at 2. rewrite firstn_app, Nat.sub_diag, firstn_O, app_nil_r, firstn_all. reflexivity.
Qed.
(** the innermost scope around [ws] that declares [n] *)
Definition innermost (nested : list (tok * tok)) (ws : list tok) (s n : tok) : Prop :=
  exists p q, ws = p ++ q /\ s = path p /\ In (s ++ bs "::", n) nested
  /\ forall p' q', ws = p' ++ q' -> (length p < length p')%nat -> ~ In (path p' ++ bs "::", n) nested.
Definition typedef_line (templ : bool) (ws : list tok) (e : tok * tok) : tok :=
  bs "typedef " ++ (if (templ && beq (fst e) (path ws))%bool then bs "typename" else []) ++ bs " " ++ fst e ++ bs "::" ++ snd e ++ bs " " ++ snd e ++ bs ";".
(** the names new at a level *)
Fixpoint fresh (names avoid : list tok) : list tok :=
  match names with
  | [] => []
  | n :: names => (if existsb (beq n) avoid then [] else [n]) ++ fresh names (avoid ++ [n])
  end.
Lemma level_fresh kw scope names : forall avoid,
  nest_level kw scope names avoid = (map (fun n => bs "typedef " ++ kw ++ bs " " ++ scope ++ bs "::" ++ n ++ bs " " ++ n ++ bs ";") (fresh names avoid), avoid ++ names).
Proof.
  induction names as [|n names IH]; intros avoid; cbn [nest_level fresh map]; [now rewrite app_nil_r|]. rewrite IH, map_app. destruct (existsb _ avoid); cbn [map app]; now rewrite <- app_assoc.
Qed.
Lemma fresh_in names : forall avoid n, In n (fresh names avoid) <-> In n names /\ ~ In n avoid.
Proof.
  induction names as [|m names IH]; intros avoid n; cbn [fresh In]; [tauto|]. rewrite in_app_iff, IH, in_app_iff. cbn [In]. destruct (existsb (beq m) avoid) eqn:E.
  - apply existsb_in in E. cbn [In]. split; [intros [[]|(A & B)]; tauto|]. intros ([->|A] & B); [contradiction|]. right. split; [exact A|]. intros [X|[->|[]]]; contradiction.
  - assert (NE : ~ In m avoid) by (rewrite <- existsb_in, E; discriminate). cbn [In]. split; [intros [[->|[]]|(A & B)]; tauto|].
    intros ([->|A] & B); [tauto|]. destruct (list_eq_dec Ascii.ascii_dec m n) as [->|D]; [tauto|]. right. split; [exact A|]. intros [X|[->|[]]]; tauto.
Qed.
Lemma fresh_nodup names : forall avoid, NoDup (fresh names avoid).
Proof.
  induction names as [|m names IH]; intros avoid; cbn [fresh]; [constructor|]. destruct (existsb (beq m) avoid); cbn [app]; [apply IH|]. constructor; [|apply IH].
  rewrite fresh_in, in_app_iff. cbn [In]. tauto.
Qed.
Lemma at_key_in {A} key (l : list (tok * A)) x : In x (at_key key l) <-> In (key, x) l.
Proof.
  unfold at_key. rewrite in_map_iff. split.
  - intros ((k, y) & <- & I). apply filter_In in I. destruct I as (I & E). cbn [fst snd] in *. apply beq_eq in E. now subst.
  - intros I. exists (key, x). split; [reflexivity|]. apply filter_In. split; [exact I|apply beq_refl].
Qed.
Lemma path_length p : (2 * length p <= length (path p))%nat.
Proof. induction p as [|w p IH]; [cbn; lia|]. cbn [path map concat length]. fold (path p). rewrite !app_length. cbn [length bs list_ascii_of_string]. lia. Qed.
Lemma path_shorter p q : q <> [] -> (length (path p) < length (path (p ++ q)))%nat.
Proof. intros H. rewrite path_app, app_length. pose proof (path_length q). destruct q; [congruence|]. cbn [length] in *. lia. Qed.
Definition scope_word (w : tok) : Prop := ~ In ":"%char w /\ w <> [].
Lemma nest_chain nested templ full : forall ws post, full = ws ++ post -> Forall scope_word ws ->
  forall f avoid, (length ws < f)%nat ->
  exists L, nest_lines f nested (path ws) (templ && match post with [] => true | _ => false end)%bool avoid = map (typedef_line templ full) L
  /\ NoDup (map snd L) /\ StronglySorted (fun a b => length (fst b) <= length (fst a))%nat L
  /\ (forall s n, In (s, n) L <-> ~ In n avoid /\ innermost nested ws s n).
Proof.
  induction ws as [|w ws IH] using rev_ind; intros post FU F f avoid L; (destruct f as [|f]; [lia|]); cbn [nest_lines]; rewrite level_fresh.
  - set (nm := fresh _ avoid). exists (map (fun n => (@nil ascii, n)) nm). split.
    + change (rfind2 (path [])) with (@None nat). rewrite app_nil_r, map_map. apply map_ext. intros n. unfold typedef_line. cbn [fst snd]. cbn [app] in FU. subst post.
      replace (beq [] (path full)) with (match full with [] => true | _ => false end) by (destruct full; reflexivity). reflexivity.
    + split; [rewrite map_map; cbn [snd]; rewrite map_id; apply fresh_nodup|]. split.
      * clear. induction nm; cbn [map]; constructor; [assumption|]. apply Forall_forall. intros x X. apply in_map_iff in X. destruct X as (y & <- & _). cbn. lia.
      * intros s n. rewrite in_map_iff. split.
        -- intros (m & [= <- <-] & I). unfold nm in I. rewrite fresh_in, at_key_in in I. split; [tauto|]. exists [], []. repeat split; [tauto|].
           intros p' q' E L2. destruct p'; [cbn in L2; lia|discriminate].
        -- intros (NA & p & q & E & -> & I & _). destruct p; [|discriminate]. exists n. split; [reflexivity|]. unfold nm. rewrite fresh_in, at_key_in. auto.
  - apply Forall_app in F. destruct F as (F & FW). inversion FW as [|? ? (C & _) _]; subst. destruct (path_last ws w C) as (R & FN). rewrite R, FN.
    rewrite app_length in L. cbn [length] in L.
    set (scope := path (ws ++ [w])) in *. set (nm := fresh _ avoid). set (tmp := (templ && _)%bool).
    set (full := (ws ++ [w]) ++ post) in *.
    assert (TL : forall n, bs "typedef " ++ (if tmp then bs "typename" else []) ++ bs " " ++ scope ++ bs "::" ++ n ++ bs " " ++ n ++ bs ";" = typedef_line templ full (scope, n)).
    { intros n. unfold typedef_line. cbn [fst snd]. do 2 f_equal. unfold tmp. destruct templ; [|reflexivity]. cbn [andb].
      replace (beq scope (path full)) with (match post with [] => true | _ => false end); [reflexivity|]. unfold full. destruct post as [|x post]; [rewrite app_nil_r; symmetry; apply beq_refl|].
      symmetry. apply Bool.not_true_iff_false. rewrite beq_eq. intros E. pose proof (path_shorter (ws ++ [w]) (x :: post)) as PS. fold scope in PS. rewrite <- E in PS. specialize (PS ltac:(discriminate)). lia. }
    assert (REC : exists L2, (if teq (path ws) "::" then [] else nest_lines f nested (path ws) false (avoid ++ at_key (scope ++ bs "::") nested)) = map (typedef_line templ full) L2
       /\ NoDup (map snd L2) /\ StronglySorted (fun a b => length (fst b) <= length (fst a))%nat L2
       /\ (forall s n, In (s, n) L2 <-> ~ In n (avoid ++ at_key (scope ++ bs "::") nested) /\ innermost nested ws s n)).
    { replace (teq (path ws) "::") with false.
      - destruct (IH ([w] ++ post)) with (f := f) (avoid := avoid ++ at_key (scope ++ bs "::") nested) as (L2 & E & H); [now unfold full; rewrite <- app_assoc|exact F|lia|].
        exists L2. split; [|exact H]. rewrite <- E. cbn [app]. now rewrite Bool.andb_false_r.
      - symmetry. apply Bool.not_true_iff_false. intros E. change (beq (path ws) (bs "::") = true) in E. apply beq_eq in E. destruct ws as [|v ws]; [discriminate|].
        inversion F as [|? ? (_ & NE) _]; subst. unfold path in E. cbn [map concat] in E. rewrite <- app_assoc in E. apply (f_equal (@length ascii)) in E. rewrite !app_length in E.
        destruct v; [congruence|]. cbn [length bs list_ascii_of_string] in E. lia. }
    destruct REC as (L2 & E2 & N2 & S2 & I2). rewrite E2. exists (map (fun n => (scope, n)) nm ++ L2).
    assert (LE : forall s n, In (s, n) L2 -> (length s <= length scope)%nat).
    { intros s n X. apply I2 in X. destruct X as (_ & p & q & E & -> & _). unfold scope. rewrite E. rewrite !path_app, !app_length. lia. }
    split; [rewrite map_app, map_map; f_equal; apply map_ext; exact TL|]. split.
    + rewrite map_app, map_map. cbn [snd]. rewrite map_id.
      assert (DJ : forall n, In n nm -> ~ In n (map snd L2)).
      { intros n X Y. apply in_map_iff in Y. destruct Y as ((s, m) & E & Y). cbn [snd] in E. subst m. apply I2 in Y. destruct Y as (Y & _). apply Y.
        unfold nm in X. rewrite fresh_in in X. apply in_or_app. right. tauto. }
      pose proof (fresh_nodup (at_key (scope ++ bs "::") nested) avoid) as ND. fold nm in ND. clear - DJ ND N2. induction nm as [|x nm IH]; [exact N2|]. inversion ND; subst. cbn [app].
      constructor; [|apply IH; [intros n X; apply DJ; right; exact X|assumption]]. rewrite in_app_iff. intros [X|X]; [contradiction|]. apply (DJ x); [left; reflexivity|exact X].
    + split.
      * clear - S2 LE. induction nm as [|x nm IH]; cbn [map app]; [exact S2|]. constructor; [exact IH|]. apply Forall_forall. intros (s, n) X. apply in_app_or in X. cbn [fst].
        destruct X as [X|X]; [apply in_map_iff in X; destruct X as (y & [= <- _] & _); lia|eapply LE; eauto].
      * intros s n. rewrite in_app_iff, in_map_iff, I2. unfold nm. split.
        -- intros [(m & [= <- <-] & X)|(X & p & q & -> & -> & INp & MX)].
           ++ rewrite fresh_in, at_key_in in X. split; [tauto|]. exists (ws ++ [w]), []. rewrite app_nil_r. repeat split; [tauto|].
              intros p' q' E LL. exfalso. apply (f_equal (@length tok)) in E. rewrite !app_length in E. rewrite app_length in LL. lia.
           ++ rewrite in_app_iff, at_key_in in X. split; [tauto|]. exists p, (q ++ [w]). split; [now rewrite app_assoc|]. repeat split; [exact INp|].
              intros p' q' E LL Y. destruct q' as [|z q'] using rev_ind; [rewrite app_nil_r in E; rewrite <- E in Y; tauto|]. clear IHq'.
              rewrite app_assoc in E. apply app_inj_tail in E. destruct E as (E & _). exact (MX _ _ E LL Y).
        -- intros (NA & p & q & E & -> & INp & MX). destruct q as [|z q] using rev_ind.
           ++ rewrite app_nil_r in E. subst p. left. exists n. split; [reflexivity|]. rewrite fresh_in, at_key_in. auto.
           ++ clear IHq. rewrite app_assoc in E. apply app_inj_tail in E. destruct E as (E & <-). right. split.
              ** rewrite in_app_iff, at_key_in. intros [X|X]; [contradiction|]. revert X. unfold scope. apply (MX (ws ++ [w]) []); [now rewrite app_nil_r|]. rewrite E, !app_length. cbn. lia.
              ** exists p, q. split; [exact E|]. repeat split; [exact INp|]. intros p' q' E' LL. apply (MX p' (q' ++ [w])); [rewrite E', <- app_assoc; reflexivity|exact LL].
Qed.
Theorem C76_nested : forall nested templ ws, Forall scope_word ws ->
  exists L, printNestedTypes nested (path ws) templ = map (typedef_line templ ws) L
  /\ NoDup (map snd L)                                                                (* each name once *)
  /\ (forall s n, In (s, n) L <-> innermost nested ws s n)                            (* from the innermost scope that has it *)
  /\ StronglySorted (fun a b => length (fst b) <= length (fst a))%nat L.              (* inner scopes first *)
Proof.
  intros nested templ ws F. destruct (nest_chain nested templ ws ws []) with (f := S (length (path ws))) (avoid := @nil tok) as (L & E & N & S1 & I1);
    [now rewrite app_nil_r|exact F|pose proof (path_length ws); lia|].
  exists L. unfold printNestedTypes. rewrite Bool.andb_true_r in E. split; [exact E|]. split; [exact N|]. split; [|exact S1].
  intros s n. rewrite I1. cbn [In]. tauto.
Qed.
Print Assumptions C76_nested.
Example C76_ex : Forall scope_word [bs "N"; bs "S"] /\ map shown (printNestedTypes [(bs "::N::", bs "T"); (bs "::N::S::", bs "T"); (bs "::N::", bs "U"); (bs "::N::S::", bs "V"); (bs "::", bs "V"); (bs "::", bs "W")] (path [bs "N"; bs "S"]) true)
  = ["typedef typename ::N::S::T T;"; "typedef typename ::N::S::V V;"; "typedef  ::N::U U;"; "typedef  ::W W;"]%string.
Proof. split; [repeat constructor; try discriminate; cbn; intuition discriminate|vm_compute; reflexivity]. Qed.

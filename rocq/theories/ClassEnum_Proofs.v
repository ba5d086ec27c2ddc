(** * Enumerations *)
From Verif Require Import Base Base_Proofs SMap Dec Desc_Model Tok_Model Parse_Model Parse_Props Ns_Props.
From Verif Require Import ClassParse_Model ClassParse_Proofs ClassParse_Spec ClassFile_Spec ClassMem_Proofs ClassFile_Proofs.

Lemma cbind_get {A} (k : inp -> C A) g i : cbind get k g i = k i g i. Proof. reflexivity. Qed.
Lemma cbind_ok {A B} (m : C A) (k : A -> C B) g i a g' i' : m g i = COk a g' i' -> cbind m k g i = k a g' i'.
Proof. intros H. unfold cbind. now rewrite H. Qed.
Lemma cbind_assoc {A B D} (m : C A) (k : A -> C B) (h : B -> C D) g i : cbind m (fun a => cbind (k a) h) g i = cbind (cbind m k) h g i.
Proof. unfold cbind. destruct (m g i); reflexivity. Qed.
Lemma cbind_assoc3 {D} (m : C unit) (w : inp -> C unit) (h : unit -> C D) g i :
  cbind m (fun _ => cbind get (fun i => cbind (w i) h)) g i = cbind (cbind m (fun _ => cbind get w)) h g i.
Proof. unfold cbind. destruct (m g i); reflexivity. Qed.
Lemma enum_val_run v : ~ In (bs ",") v -> ~ In (bs "}") v -> forall f t2 t1 t m y r, y = bs "," \/ y = bs "}" -> (length m < f)%nat -> v ++ y :: r = t :: m ->
  exists a2 a1, enum_val f (Inp t2 t1 t m) = POk tt (Inp a2 a1 y r).
Proof.
  induction v as [|u v IH]; intros N1 N2 f t2 t1 t m y r Y F E; cbn [app] in E; (destruct f as [|f]; [lia|]).
  - assert (t = y) by congruence. assert (m = r) by congruence. subst. exists t2, t1. cbn [enum_val tk]. now replace (teq y "," || teq y "}")%bool with true by (destruct Y; subst; reflexivity).
  - assert (t = u) by congruence. assert (EM : v ++ y :: r = m) by congruence. subst t. clear E.
    destruct m as [|w m]; [destruct v; discriminate|]. cbn [enum_val tk next more pbind tk1].
    rewrite !is_ne by (intros ->; first [apply N1; now left | apply N2; now left]). cbn [orb]. cbn [length] in F.
    apply IH; auto; try lia; intros X; [apply N1|apply N2]; now right.
Qed.
Section Enum.
  Variable name : tok.
  Lemma punct_facts t : punct t = false -> teq t ";" = false /\ teq t "," = false /\ teq t "=" = false /\ teq t "}" = false.
  Proof. unfold punct. intros H. rewrite !Bool.orb_false_iff in H. destruct H as (((A & B) & C) & D). auto. Qed.
  Lemma plain_turn f g t2 t1 t u m : punct t = false -> enum_loop name (S f) g (Inp t2 t1 t (u :: m)) = enum_loop name f g (Inp t1 t u m).
  Proof.
    intros P. apply punct_facts in P. destruct P as (A & B & C & D).
    cbn [enum_loop]. unfold cbind at 1, get. cbn [tk]. rewrite A, B, C, D. reflexivity.
  Qed.
  Lemma sep_turn f g t2 t1 y z r : punct t1 = false -> y = bs "," \/ y = bs "}" ->
    enum_loop name (S f) g (Inp t2 t1 y (z :: r)) = enum_loop name f (add_enum (name, t1) g) (Inp t1 y z r).
  Proof.
    intros P Y. apply punct_facts in P. destruct P as (A & B & C & D).
    cbn [enum_loop]. unfold cbind at 1, get. cbn [tk tk1]. rewrite B. destruct Y; subst; reflexivity.
  Qed.
  Lemma value_turn f g t2 t1 v y z r : punct t1 = false -> v <> [] -> ~ In (bs ",") v -> ~ In (bs "}") v -> y = bs "," \/ y = bs "}" ->
    exists a, enum_loop name (S f) g (Inp t2 t1 (bs "=") (v ++ y :: z :: r)) = enum_loop name f (add_enum (name, t1) g) (Inp a y z r).
  Proof.
    intros P NE N1 N2 Y. apply punct_facts in P. destruct P as (A & B & C & D).
    cbn [enum_loop]. unfold cbind, get. cbn [tk tk1]. rewrite B.
    change (teq (bs "=") ";") with false. change (teq (bs "=") "=") with true. cbn [orb andb negb when]. unfold upd, cbind, nxt, lift, next. cbn [more tk1 tk].
    destruct (v ++ y :: z :: r) as [|u m] eqn:E; [destruct v; discriminate|].
    destruct (enum_val_run v N1 N2 (pbound (Inp t1 (bs "=") u m)) t1 (bs "=") u m y (z :: r) Y ltac:(unfold pbound; cbn [more]; lia) E) as (a2 & a1 & ->).
    cbn [more tk1 tk]. exists a1. reflexivity.
  Qed.
  Lemma key_run k y z r : key_ok k -> y = bs "," \/ y = bs "}" -> forall f g t2 t1 m, (length m < f)%nat ->
    keytoks k ++ y :: z :: r = fst k :: m ->
    exists f' a, (length r < f')%nat /\ enum_loop name f g (Inp t2 t1 (fst k) m) = enum_loop name f' (add_enum (name, fst k) g) (Inp a y z r).
  Proof.
    intros (P & V) Y f g t2 t1 m F E. unfold keytoks in E. cbn [app] in E.
    destruct f as [|f]; [lia|]. destruct (snd k) as [v|].
    - cbn [app] in E. assert (m = bs "=" :: v ++ y :: z :: r) by congruence. subst m. cbn [length] in F. rewrite app_length in F. cbn [length] in F.
      rewrite (plain_turn _ _ _ _ _ _ _ P). destruct f as [|f]; [lia|]. destruct V as (V1 & V2 & V3).
      destruct (value_turn f g t1 (fst k) v y z r P V1 V2 V3 Y) as (a & ->). exists f, a. split; [lia|reflexivity].
    - cbn [app] in E. assert (m = y :: z :: r) by congruence. subst m. cbn [length] in F. rewrite (plain_turn _ _ _ _ _ _ _ P).
      destruct f as [|f]; [lia|]. rewrite (sep_turn _ _ _ _ _ _ _ P Y). exists f, (fst k). split; [lia|reflexivity].
  Qed.
  Definition add_keys (ks : list tok) (g : glob) : glob := fold_left (fun g k => add_enum (name, k) g) ks g.
  Lemma keys_run ks : Forall key_ok ks -> forall f g t2 t1 t m z r,  (length m < f)%nat ->
    concat (map (fun k => keytoks k ++ [bs ","]) ks) ++ z :: r = t :: m ->
    exists f' a2 a1, (length r < f')%nat /\ enum_loop name f g (Inp t2 t1 t m) = enum_loop name f' (add_keys (map fst ks) g) (Inp a2 a1 z r).
  Proof.
    induction 1 as [|k ks K _ IH]; intros f g t2 t1 t m z r F E; cbn [map concat] in E.
    - cbn [app] in E. assert (t = z) by congruence. assert (m = r) by congruence. subst. exists f, t2, t1. split; [exact F|reflexivity].
    - rewrite <- !app_assoc in E. cbn [app] in E.
      assert (T : t = fst k) by (unfold keytoks in E; cbn [app] in E; congruence). subst t.
      destruct (concat (map (fun k => keytoks k ++ [bs ","]) ks) ++ z :: r) as [|u m2] eqn:E2; [destruct (concat _); discriminate|].
      destruct (key_run k (bs ",") u m2 K (or_introl eq_refl) f g t2 t1 m F E) as (f' & a & F' & ->).
      destruct (IH f' (add_enum (name, fst k) g) a (bs ",") u m2 z r F' E2) as (f2 & a2 & a1 & F2 & ->).
      exists f2, a2, a1. split; [exact F2|reflexivity].
  Qed.
End Enum.

Definition enum_word (scoped : bool) : tok := if scoped then bs "enum class " else bs "enum ".
(** [p] is the scope, which may be a class *)
Definition enum_eff (o : opts) (scoped : bool) (ns p name : tok) (keys : list tok) (g : glob) : glob :=
  add_action (Action (enum_word scoped ++ p ++ name) [Act [] (if typeNm o then bs "classdesc::enum_handle(arg)" else bs "(int&)arg") [] false false]
                (firstn (length ns - 2) ns) [])
    (add_keys (enum_word scoped ++ p ++ name) keys (add_nested (p, name) g)).
Lemma add_keys_ns name ks g : g_ns (add_keys name ks g) = g_ns g.
Proof. unfold add_keys. revert g. induction ks as [|k ks IH]; intros g; [reflexivity|]. cbn [fold_left]. now rewrite IH. Qed.
(** from the token after [enum] *)
Lemma enum_item_in o ns e rest g t2 t1 t m : enum_ok e -> ends (g_ns g) -> enumtoks e ++ rest = bs "enum" :: t :: m ->
  exists a, assign_enum_action o ns g (Inp t2 t1 t m) = COk tt (enum_eff o (e_class e) (g_ns g) ns (e_name e) (enum_names e) g) (Inp a (bs "}") (bs ";") rest).
Proof.
  intros (W & NC & U & K & KL) EN E. unfold enumtoks in E. rewrite <- !app_assoc in E. cbn [app] in E.
  set (body := concat (map (fun k => keytoks k ++ [bs ","]) (e_keys e)) ++ keytoks (e_last e) ++ (if e_comma e then [bs ","] else []) ++ [bs "}"; bs ";"] ++ rest).
  assert (E1 : (if e_class e then [bs "class"] else []) ++ e_name e :: match e_under e with Some u => bs ":" :: u | None => [] end ++ bs "{" :: body = t :: m).
  { unfold body. repeat (rewrite <- !app_assoc in E; cbn [app] in E). cbn [app]. congruence. }
  clear E. unfold assign_enum_action. rewrite cbind_get. cbn [tk].
  assert (H : exists a2 a1, (if teq t "class" then nxt ;- cret (bs "enum class ") else cret (bs "enum ")) g (Inp t2 t1 t m)
     = COk (enum_word (e_class e)) g (Inp a2 a1 (e_name e) (match e_under e with Some u => bs ":" :: u | None => [] end ++ bs "{" :: body))).
  { destruct (e_class e); cbn [app] in E1.
    - assert (t = bs "class") by congruence. assert (m = e_name e :: match e_under e with Some u => bs ":" :: u | None => [] end ++ bs "{" :: body) by congruence.
      subst. exists t1, (bs "class"). reflexivity.
    - assert (t = e_name e) by congruence. assert (m = match e_under e with Some u => bs ":" :: u | None => [] end ++ bs "{" :: body) by congruence.
      subst. rewrite (is_ne _ _ NC). exists t2, t1. reflexivity. }
  destruct H as (a2 & a1 & H). rewrite (cbind_ok _ _ _ _ _ _ _ H). clear E1 H. rewrite cbind_get. cbn [tk].
  assert (H : exists b2 b1, (nxt ;- i :- get ;; when (teq (tk i) ":") (skip_set ";{")) g (Inp a2 a1 (e_name e) (match e_under e with Some u => bs ":" :: u | None => [] end ++ bs "{" :: body))
     = COk tt g (Inp b2 b1 (bs "{") body)).
  { unfold cbind, nxt, lift, next, get. destruct (e_under e) as [u|]; cbn [app more tk tk1].
    - change (teq (bs ":") ":") with true. cbn [when]. unfold skip_set, lift.
      destruct (skipset_run (pcls o) false ";{"%string u U (pbound (Inp a1 (e_name e) (bs ":") (u ++ bs "{" :: body))) a1 (e_name e) (bs ":") (bs "{") body eq_refl eq_refl) as (b2 & b1 & ->).
      { unfold pbound. cbn [more]. rewrite app_length. cbn [length]. lia. }
      exists b2, b1. reflexivity.
    - exists a1, (e_name e). reflexivity. }
  destruct H as (b2 & b1 & H).
  rewrite (cbind_assoc3 nxt (fun i => when (teq (tk i) ":") (skip_set ";{"))).
  rewrite (cbind_ok _ _ _ _ _ _ _ H). clear H. rewrite cbind_get. cbn [tk]. change (teq (bs "{") "{") with true. cbn [when]. unfold cbind, upd, pbound. cbn [more].
  set (nm := enum_word (e_class e) ++ ns ++ e_name e).
  assert (H : exists c2, enum_loop nm (S (length body)) (add_nested (ns, e_name e) g) (Inp b2 b1 (bs "{") body)
     = COk tt (add_keys nm (enum_names e) (add_nested (ns, e_name e) g)) (Inp c2 (bs "}") (bs ";") rest)).
  { destruct body as [|u m'] eqn:EB; [exfalso; unfold body in EB; destruct (concat _); [|discriminate]; discriminate|].
    rewrite plain_turn by reflexivity. cbn [length].
    destruct (keys_run nm (e_keys e) K (S (length m')) (add_nested (ns, e_name e) g) b1 (bs "{") u m' (fst (e_last e))
       (match snd (e_last e) with Some v => bs "=" :: v | None => [] end ++ (if e_comma e then [bs ","] else []) ++ [bs "}"; bs ";"] ++ rest) ltac:(lia)) as (f & c2 & c1 & F & ->).
    { rewrite <- EB. unfold body, keytoks. cbn [app]. reflexivity. }
    unfold enum_names. replace (add_keys nm (map fst (e_keys e) ++ [fst (e_last e)]) (add_nested (ns, e_name e) g))
      with (add_enum (nm, fst (e_last e)) (add_keys nm (map fst (e_keys e)) (add_nested (ns, e_name e) g))) by (unfold add_keys; now rewrite fold_left_app).
    destruct (e_comma e); cbn [app] in F |- *.
    - destruct (key_run nm (e_last e) (bs ",") (bs "}") (bs ";" :: rest) KL (or_introl eq_refl) f (add_keys nm (map fst (e_keys e)) (add_nested (ns, e_name e) g)) c2 c1 _ F) as (f' & a & F' & ->).
      { reflexivity. }
      destruct f' as [|[|f']]; [cbn in F'; lia|cbn in F'; lia|]. exists (bs ","). reflexivity.
    - destruct (key_run nm (e_last e) (bs "}") (bs ";") rest KL (or_intror eq_refl) f (add_keys nm (map fst (e_keys e)) (add_nested (ns, e_name e) g)) c2 c1 _ F) as (f' & a & F' & ->).
      { reflexivity. }
      destruct f' as [|f']; [cbn in F'; lia|]. exists a. reflexivity. }
  destruct H as (c2 & ->). rewrite new_action_run by (rewrite add_keys_ns; exact EN). exists c2. rewrite add_keys_ns. reflexivity.
Qed.
Lemma enum_item o ns e rest g t2 t1 t m : enum_ok e -> ends ns -> g_ns g = ns -> enumtoks e ++ rest = bs "enum" :: t :: m ->
  exists a b, assign_enum_action o ns g (Inp t2 t1 t m) = COk tt (enum_eff o (e_class e) ns ns (e_name e) (enum_names e) g) (Inp a b (bs ";") rest).
Proof.
  intros OK EN GN E. rewrite <- GN in EN. destruct (enum_item_in o ns e rest g t2 t1 t m OK EN E) as (a & ->).
  exists a, (bs "}"). now rewrite GN.
Qed.

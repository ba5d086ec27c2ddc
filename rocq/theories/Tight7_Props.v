(** * Further strengthening: what becomes of every type whose XML element is absent *)
From Verif Require Import Base SMap Dec Desc_Model Desc_Props Json_Model Xml_Model Xml_Spec Xml_Props.
Import ListNotations.

(** ** C30 *)
(** What an absent element does to a value: numbers, strings, std::array and StringKeyMap
    keep it, enumerations take the value of the empty name, sequences, sets and maps are
    emptied, pointers become null. *)
Inductive xreset : xty -> jval -> jval -> Prop :=
| xr_keep : forall t a, match t with XBool | XChar | XByte | XInt _ _ | XFlt | XStr | XCdata | XMap _ | XSeq (Some _) _ _ => True | _ => False end ->
    xreset t a a
| xr_enum0 : forall ks a, ~ In [] (map fst ks) -> xreset (XEnum ks) a (VI 0)
| xr_enum : forall ks a z, In ([], z) ks -> xreset (XEnum ks) a (VI z)
| xr_seq : forall e t a, xreset (XSeq None e t) a (VL [])
| xr_assoc : forall m c e t a, xreset (XAssoc m c e t) a (VL [])
| xr_arr : forall n e t l l', Forall2 (xreset t) l l' -> xreset (XArr n e t) (VL l) (VL l')
| xr_pair : forall ta tb a b a' b', xreset ta a a' -> xreset tb b b' -> xreset (XPair ta tb) (VP a b) (VP a' b')
| xr_tup : forall ts l l', xreset_tys ts l l' -> xreset (XTup ts) (VL l) (VL l')
| xr_struct : forall fs l l', xreset_flds fs l l' -> xreset (XStruct fs) (VL l) (VL l')
| xr_ptr : forall t a, xreset (XPtr t) a VNul
| xr_poly : forall als a, xreset (XPoly als) a VNul
with xreset_tys : xtys -> list jval -> list jval -> Prop :=
| xrt_nil : xreset_tys xtnil [] []
| xrt_cons : forall e t ts a b l l', xreset t a b -> xreset_tys ts l l' -> xreset_tys (xtcons e t ts) (a :: l) (b :: l')
with xreset_flds : xflds -> list jval -> list jval -> Prop :=
| xrf_nil : xreset_flds XNil [] []
| xrf_cons : forall n t fs a b l l', xreset t a b -> xreset_flds fs l l' -> xreset_flds (XCons n t fs) (a :: l) (b :: l').

(** values of the type, as far as fixed parts go; enumerators have different names *)
Fixpoint fits_x (t : xty) (v : jval) {struct t} : Prop :=
  match t, v with
  | XEnum ks, _ => NoDup (map fst ks)
  | XSeq (Some _) _ _, VL _ => True
  | XArr _ _ t', VL l => Forall (fits_x t') l
  | XPair a b, VP x y => fits_x a x /\ fits_x b y
  | XTup ts, VL l => fits_tys ts l
  | XStruct fs, VL l => fits_flds fs l
  | XMap _, VM _ => True
  | XSeq (Some _) _ _, _ | XArr _ _ _, _ | XPair _ _, _ | XTup _, _ | XStruct _, _ | XMap _, _ => False
  | _, _ => True
  end
with fits_tys (ts : xtys) (l : list jval) {struct ts} : Prop :=
  match ts, l with
  | xtnil, [] => True
  | xtcons _ t ts', x :: l' => fits_x t x /\ fits_tys ts' l'
  | _, _ => False
  end
with fits_flds (fs : xflds) (l : list jval) {struct fs} : Prop :=
  match fs, l with
  | XNil, [] => True
  | XCons _ t fs', x :: l' => fits_x t x /\ fits_flds fs' l'
  | _, _ => False
  end.
(** nothing recorded at or below [d], under any form of the names *)
Definition gone (x : xdb) (d : list ascii) : Prop := forall e,
  mfind bcmp (add_hash_noughts (d ++ e)) (xcm x) = None /\ mfind bcmp (d ++ e) (xcm x) = None /\
  count (xtc x) (d ++ e) = 0%N /\ exists_ (xtc x) (d ++ e) = false.
Lemma gone_sub : forall x d e, gone x d -> gone x (d ++ e).
Proof. intros x d e H e'. rewrite <- app_assoc. apply H. Qed.
Lemma gone_lookup : forall x d, gone x d -> miss x = false -> lookup x d = POk None.
Proof. intros x d H M. unfold lookup. destruct (H []) as (A & _). rewrite app_nil_r in A. now rewrite A, M. Qed.

Lemma xreset_all : forall fget klt x, miss x = false ->
  (forall t d v, gone x d -> fits_x t v -> exists r, xunpack fget klt x t d v = POk r /\ xreset t v r) /\
  (forall ts d i l, gone x d -> fits_tys ts l -> exists r, xunpack_tup fget klt x ts d i l = POk r /\ xreset_tys ts l r) /\
  (forall fs d l, gone x d -> fits_flds fs l -> exists r, xunpack_flds fget klt x fs d l = POk r /\ xreset_flds fs l r) /\
  (forall als : xalts, True).
Proof.
  intros fget klt x M. apply xty_mutind; try (intros; exact I);
    try (intros; cbn [xunpack]; rewrite gone_lookup by assumption; cbn [pbind]; exists v; split; [now destruct v|now constructor]).
  - intros ks d v G F. cbn [xunpack]. rewrite gone_lookup by assumption. cbn [pbind filter]. cbn [fits_x] in F.
    destruct (in_dec (list_eq_dec ascii_dec) [] (map fst ks)) as [I0|N0].
    + apply in_map_iff in I0 as ([k z] & E & I0). cbn [fst] in E. subst k.
      exists (VI z). split; [|now constructor]. unfold ek_val, ek_make. rewrite mfind_fold_s, (nodup_find ks [] z); auto.
    + exists (VI 0). split; [|now constructor]. now rewrite (proj1 (proj1 (C33_unknown ks) [] N0)).
  - intros fixed e t IH d v G F. cbn [xunpack]. destruct (G (dot :: e)) as (_ & _ & C & _). rewrite C.
    change (N.to_nat 0) with 0. destruct fixed.
    + destruct v; try contradiction. cbn [firstn skipn xeach pbind app]. exists (VL l). split; [reflexivity|now constructor].
    + cbn [repeat xeach pbind]. exists (VL []). split; [reflexivity|constructor].
  - intros n e t IH d v G F. destruct v; try contradiction. cbn [xunpack].
    assert (E : forall l i, Forall (fits_x t) l ->
       exists r, xeach (fun i v => xunpack fget klt x t (idx (d ++ dot :: e) i) v) i l = POk r /\ Forall2 (xreset t) l r).
    { intros l0 i H. revert i. induction H as [|y ys H1 H2 IHl]; intros i; [exists []; split; [reflexivity|constructor]|].
      cbn [xeach]. destruct (IH (idx (d ++ dot :: e) i) y) as (r & E & R); [unfold idx; rewrite <- app_assoc; now apply gone_sub|exact H1|].
      destruct (IHl (i + 1)%N) as (rs & Es & Rs).
      rewrite E. cbn [pbind]. rewrite Es. cbn [pbind]. eexists. split; [reflexivity|]. now constructor. }
    destruct (E l 0%N F) as (r & Er & R). rewrite Er. cbn [pbind]. eexists. split; [reflexivity|]. now constructor.
  - intros m c e t IH d v G F. cbn [xunpack].
    assert (C : count (xtc x) (match d with [] => e | _ => d ++ dot :: e end) = 0%N).
    { destruct d; [exact (proj1 (proj2 (proj2 (G e))))|exact (proj1 (proj2 (proj2 (G (dot :: e)))))]. }
    rewrite C. exists (VL []). split; [reflexivity|constructor].
  - intros a IHa b IHb d v G F. destruct v; try contradiction. destruct F as [F1 F2]. cbn [xunpack].
    destruct (IHa (d ++ bs ".first") v1) as (r1 & E1 & R1); [now apply gone_sub|exact F1|].
    destruct (IHb (d ++ bs ".second") v2) as (r2 & E2 & R2); [now apply gone_sub|exact F2|].
    rewrite E1. cbn [pbind]. rewrite E2. cbn [pbind]. eexists. split; [reflexivity|]. now constructor.
  - intros ts IH d v G F. destruct v; try contradiction. destruct ts as [|e t ts].
    + exists (VL l). split; [reflexivity|]. destruct l; [|contradiction]. apply xr_tup. constructor.
    + destruct (IH (d ++ dot :: e) 0%N l) as (r & E & R); [now apply gone_sub|exact F|].
      exists (VL r). split; [|now constructor].
      change (pbind (xunpack_tup fget klt x (xtcons e t ts) (d ++ dot :: e) 0%N l) (fun r => POk (VL r)) = POk (VL r)). now rewrite E.
  - intros fs IH d v G F. destruct v; try contradiction. destruct (IH d l G F) as (r & E & R).
    exists (VL r). split; [|now constructor].
    change (pbind (xunpack_flds fget klt x fs d l) (fun r => POk (VL r)) = POk (VL r)). now rewrite E.
  - intros t IH d v G F. cbn [xunpack]. destruct (G []) as (_ & _ & _ & X). rewrite app_nil_r in X. rewrite X.
    exists VNul. split; [reflexivity|constructor].
  - intros als _ d v G F. cbn [xunpack]. destruct (G (bs ".type")) as (_ & _ & _ & X). rewrite X.
    exists VNul. split; [reflexivity|constructor].
  - intros t IH d v G F. destruct v; try contradiction. cbn [xunpack]. destruct (G []) as (_ & X & _). rewrite app_nil_r in X.
    rewrite X. eexists. split; [reflexivity|now constructor].
  - intros d i l G F. destruct l; [|contradiction]. exists []. split; [reflexivity|constructor].
  - intros e t IHt ts IHs d i [|v l] G F; [contradiction|]. destruct F as [F1 F2].
    destruct (IHt (idx d i) v) as (r & E & R); [unfold idx; now apply gone_sub|exact F1|].
    destruct (IHs d (i + 1)%N l G F2) as (rs & Es & Rs). exists (r :: rs). split; [|now constructor].
    change (pbind (xunpack fget klt x t (idx d i) v) (fun r => pbind (xunpack_tup fget klt x ts d (i + 1)%N l) (fun rs => POk (r :: rs))) = POk (r :: rs)).
    rewrite E. cbn [pbind]. now rewrite Es.
  - intros d l G F. destruct l; [|contradiction]. exists []. split; [reflexivity|constructor].
  - intros n t IHt fs IHf d [|v l] G F; [contradiction|]. destruct F as [F1 F2].
    destruct (IHt (d ++ dot :: n) v) as (r & E & R); [now apply gone_sub|exact F1|].
    destruct (IHf d l G F2) as (rs & Es & Rs). exists (r :: rs). split; [|now constructor].
    change (pbind (xunpack fget klt x t (d ++ dot :: n) v) (fun r => pbind (xunpack_flds fget klt x fs d l) (fun rs => POk (r :: rs))) = POk (r :: rs)).
    rewrite E. cbn [pbind]. now rewrite Es.
Qed.
(** Every type whose element is absent: nothing is thrown, and this is the value after. *)
Theorem C30_absent_reset : forall fget klt x t d v, miss x = false -> gone x d -> fits_x t v ->
  exists r, xunpack fget klt x t d v = POk r /\ xreset t v r.
Proof. intros fget klt x t d v M. exact (proj1 (xreset_all fget klt x M) t d v). Qed.
Print Assumptions C30_absent_reset.
Definition t30 : xty := XStruct (XCons (bs "e") (XEnum [(bs "red", 4%Z)]) (XCons (bs "v") (XSeq None (bs "int") (XInt true 32)) (XCons (bs "p") (XPtr XStr) XNil))).
Example C30_absent_reset_ex : forall fget klt, let x := {| xcm := []; xtc := []; miss := false |} in
  gone x (bs "root") /\ fits_x t30 (VL [VI 4; VL [VI 1]; VPtr (VS [])]) /\
  xunpack fget klt x t30 (bs "root") (VL [VI 4; VL [VI 1]; VPtr (VS [])]) = POk (VL [VI 0; VL []; VNul]).
Proof.
  intros. split; [intros e; repeat split; reflexivity|]. split; [|vm_compute; reflexivity].
  cbn. repeat split. repeat constructor. auto.
Qed.

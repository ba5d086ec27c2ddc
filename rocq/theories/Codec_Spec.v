(** * Specification of the binary format and of what unpacking must deliver *)
From Verif Require Import Base PackBuf_Model PackBuf_Spec Codec_Model.

(** [P]: size fields are 8-byte little-endian counts, a smart pointer is a validity
    byte, everything else is the concatenation of its parts. *)
Fixpoint enc (t : ty) (v : val) {struct t} : list ascii :=
  match t, v with
  | TBasic _, VRaw b | TCharArr _, VRaw b => b
  | TEnum, VEnum z => le 4 (Z.to_N (z mod 2^32))
  | TStr k, VStr b => le 8 (len b / k) ++ b
  | TSeq te, VList vs | TArr _ te, VList vs | TAssoc _ _ te, VList vs =>
      le 8 (len vs) ++ concat (map (enc te) vs)
  | TCArr _ te, VList vs => concat (map (enc te) vs)
  | TPair a b, VPair x y => enc a x ++ enc b y
  | TTup ts, VList vs => enc_tys ts vs
  | TStruct fs, VList vs => enc_flds fs vs
  | TOpt te, VOpt (Some x) => le 1 1 ++ enc te x
  | TPoly p, VPoly (Some (tag, x)) => le 1 1 ++ le 4 tag ++ enc_tab p tag x
  | TOpt _, VOpt None | TPoly _, VPoly None => le 1 0
  | _, _ => []
  end
with enc_tys (ts : tys) (vs : list val) {struct ts} : list ascii :=
  match ts, vs with
  | tcons t ts', v :: vs' => enc t v ++ enc_tys ts' vs'
  | _, _ => []
  end
with enc_flds (fs : flds) (vs : list val) {struct fs} : list ascii :=
  match fs, vs with
  | FCons MSkip _ fs', _ :: vs' => enc_flds fs' vs'
  | FCons _ t fs', v :: vs' => enc t v ++ enc_flds fs' vs'
  | _, _ => []
  end
with enc_tab (p : ptab) (tag : N) (v : val) {struct p} : list ascii :=
  match p with
  | PNil => []
  | PCons tg t p' => if (tg =? tag)%N then enc t v else enc_tab p' tag v
  end.

Fixpoint map2 {A B C} (f : A -> B -> C) (l : list A) (m : list B) : list C :=
  match l, m with a :: l', b :: m' => f a b :: map2 f l' m' | _, _ => [] end.

(** What a destination holding [old] must hold after receiving [v]: [v], except that
    members that are not serialised (or are const) keep their old value. *)
Fixpoint upd (t : ty) (old v : val) {struct t} : val :=
  match t, v with
  | TSeq te, VList vs | TAssoc _ _ te, VList vs => VList (map (upd te (dflt te)) vs)
  | TArr _ te, VList vs | TCArr _ te, VList vs => VList (map2 (upd te) (as_list old) vs)
  | TPair a b, VPair x y =>
      match old with VPair oa ob => VPair (upd a oa x) (upd b ob y) | _ => v end
  | TTup ts, VList vs => VList (upd_tys ts (as_list old) vs)
  | TStruct fs, VList vs => VList (upd_flds fs (as_list old) vs)
  | TOpt te, VOpt (Some x) => VOpt (Some (upd te (dflt te) x))
  | TPoly p, VPoly (Some (tag, x)) => VPoly (Some (tag, upd_tab p tag x))
  | _, _ => v
  end
with upd_tys (ts : tys) (olds vs : list val) {struct ts} : list val :=
  match ts, olds, vs with
  | tcons t ts', o :: os, v :: vs' => upd t o v :: upd_tys ts' os vs'
  | _, _, _ => []
  end
with upd_flds (fs : flds) (olds vs : list val) {struct fs} : list val :=
  match fs, olds, vs with
  | FCons MNormal t fs', o :: os, v :: vs' => upd t o v :: upd_flds fs' os vs'
  | FCons _ t fs', o :: os, v :: vs' => o :: upd_flds fs' os vs'
  | _, _, _ => []
  end
with upd_tab (p : ptab) (tag : N) (v : val) {struct p} : val :=
  match p with
  | PNil => v
  | PCons tg t p' => if (tg =? tag)%N then upd t (dflt t) v else upd_tab p' tag v
  end.

(** no unserialised and no const members anywhere *)
Fixpoint plain (t : ty) : bool :=
  match t with
  | TBasic _ | TEnum | TStr _ | TCharArr _ | TRawPtr => true
  | TSeq t | TArr _ t | TCArr _ t | TAssoc _ _ t | TOpt t => plain t
  | TPair a b => plain a && plain b
  | TTup ts => plain_tys ts
  | TStruct fs => plain_flds fs
  | TPoly p => plain_tab p
  end
with plain_tys (ts : tys) : bool :=
  match ts with tnil => true | tcons t ts' => plain t && plain_tys ts' end
with plain_flds (fs : flds) : bool :=
  match fs with
  | FNil => true
  | FCons MNormal t fs' => plain t && plain_flds fs'
  | FCons _ _ _ => false
  end
with plain_tab (p : ptab) : bool :=
  match p with PNil => true | PCons _ t p' => plain t && plain_tab p' end.

(** an object of type [t] can hold [v] as far as its fixed structure is concerned
    (array lengths, members): the only assumption made about a destination *)
Fixpoint shape (t : ty) (v : val) {struct t} : bool :=
  match t, v with
  | TArr n te, VList vs | TCArr n te, VList vs =>
      (length vs =? n)%nat && forallb (shape te) vs
  | TPair a b, VPair x y => shape a x && shape b y
  | TTup ts, VList vs => shape_tys ts vs
  | TStruct fs, VList vs => shape_flds fs vs
  | TArr _ _, _ | TCArr _ _, _ | TPair _ _, _ | TTup _, _ | TStruct _, _ => false
  | _, _ => true
  end
with shape_tys (ts : tys) (vs : list val) {struct ts} : bool :=
  match ts, vs with
  | tnil, [] => true
  | tcons t ts', v :: vs' => shape t v && shape_tys ts' vs'
  | _, _ => false
  end
with shape_flds (fs : flds) (vs : list val) {struct fs} : bool :=
  match fs, vs with
  | FNil, [] => true
  | FCons _ t fs', v :: vs' => shape t v && shape_flds fs' vs'
  | _, _ => false
  end.

Section Codec.
Variable klt : nat -> val -> val -> bool.

(** strictly increasing (set/map) or non-decreasing (multiset/multimap) *)
Fixpoint sorted (multi : bool) (c : nat) (l : list val) : bool :=
  match l with
  | [] => true
  | y :: l' => forallb (fun x => negb (klt c x y) && (multi || klt c y x)) l'
               && sorted multi c l'
  end.

(** [v] is a value of type [t] that a C++ program can hold and the format can carry:
    an enum value fits an [int], objects are smaller than 2^63 bytes, ordered
    containers are in order (compared on their serialised parts), a polymorphic object
    has a registered type. *)
Fixpoint has_ty (t : ty) (v : val) {struct t} : bool :=
  match t, v with
  | TBasic n, VRaw b => (length b =? n)%nat && (0 <? n)%nat && (N.of_nat n <? 2^63)%N
  | TCharArr n, VRaw b => (length b =? n)%nat && (N.of_nat n <? 2^63)%N
  | TEnum, VEnum z => (- 2^31 <=? z)%Z && (z <? 2^31)%Z
  | TStr k, VStr b => (0 <? k)%N && (len b mod k =? 0)%N && (len b + k <? 2^63)%N
  | TSeq te, VList vs => (len vs <? W)%N && forallb (has_ty te) vs
  | TArr n te, VList vs =>
      (length vs =? n)%nat && (len vs <? W)%N && forallb (has_ty te) vs
  | TCArr n te, VList vs => (length vs =? n)%nat && forallb (has_ty te) vs
  | TAssoc multi c te, VList vs =>
      (len vs <? W)%N && forallb (has_ty te) vs
      && sorted multi c (map (upd te (dflt te)) vs)
  | TPair a b, VPair x y => has_ty a x && has_ty b y
  | TTup ts, VList vs => has_ty_tys ts vs
  | TStruct fs, VList vs => has_ty_flds fs vs
  | TOpt te, VOpt o => match o with None => true | Some x => has_ty te x end
  | TPoly p, VPoly o =>
      match o with None => true | Some (tag, x) => (tag <? 2^32)%N && has_ty_tab p tag x end
  | _, _ => false
  end
with has_ty_tys (ts : tys) (vs : list val) {struct ts} : bool :=
  match ts, vs with
  | tnil, [] => true
  | tcons t ts', v :: vs' => has_ty t v && has_ty_tys ts' vs'
  | _, _ => false
  end
with has_ty_flds (fs : flds) (vs : list val) {struct fs} : bool :=
  match fs, vs with
  | FNil, [] => true
  | FCons MSkip t fs', v :: vs' => shape t v && has_ty_flds fs' vs'
  | FCons _ t fs', v :: vs' => has_ty t v && has_ty_flds fs' vs'
  | _, _ => false
  end
with has_ty_tab (p : ptab) (tag : N) (v : val) {struct p} : bool :=
  match p with
  | PNil => false
  | PCons tg t p' => if (tg =? tag)%N then has_ty t v else has_ty_tab p' tag v
  end.
End Codec.

(** the comparators are strict weak orders, as the C++ standard requires *)
Definition strict_weak (klt : nat -> val -> val -> bool) : Prop :=
  (forall c x y, klt c x y = true -> klt c y x = false) /\
  (forall c x y z, klt c x y = true -> klt c x z = true \/ klt c z y = true).

(** sizes of fundamental types are positive and below 2^63; no raw pointers *)
Fixpoint ty_ok (t : ty) : bool :=
  match t with
  | TBasic n => (0 <? n)%nat && (N.of_nat n <? 2^63)%N
  | TCharArr n => (N.of_nat n <? 2^63)%N
  | TEnum => true
  | TRawPtr => false
  | TStr k => (0 <? k)%N && (k <=? 8)%N
  | TArr n t => (N.of_nat n <? W)%N && ty_ok t
  | TSeq t | TCArr _ t | TAssoc _ _ t | TOpt t => ty_ok t
  | TPair a b => ty_ok a && ty_ok b
  | TTup ts => ty_ok_tys ts
  | TStruct fs => ty_ok_flds fs
  | TPoly p => ty_ok_tab p
  end
with ty_ok_tys (ts : tys) : bool :=
  match ts with tnil => true | tcons t ts' => ty_ok t && ty_ok_tys ts' end
with ty_ok_flds (fs : flds) : bool :=
  match fs with FNil => true | FCons _ t fs' => ty_ok t && ty_ok_flds fs' end
with ty_ok_tab (p : ptab) : bool :=
  match p with PNil => true | PCons _ t p' => ty_ok t && ty_ok_tab p' end.

(** types without smart pointers *)
Fixpoint no_ptr (t : ty) : bool :=
  match t with
  | TBasic _ | TEnum | TStr _ | TCharArr _ | TRawPtr => true
  | TSeq t | TArr _ t | TCArr _ t | TAssoc _ _ t => no_ptr t
  | TPair a b => no_ptr a && no_ptr b
  | TTup ts => no_ptr_tys ts
  | TStruct fs => no_ptr_flds fs
  | TOpt _ | TPoly _ => false
  end
with no_ptr_tys (ts : tys) : bool :=
  match ts with tnil => true | tcons t ts' => no_ptr t && no_ptr_tys ts' end
with no_ptr_flds (fs : flds) : bool :=
  match fs with FNil => true | FCons _ t fs' => no_ptr t && no_ptr_flds fs' end.

(** nowhere 8 consecutive bytes 0xFF *)
Definition no_ff8 (l : list ascii) : Prop :=
  forall pre post, l <> pre ++ repeat "255"%char 8 ++ post.

(** [p] is a strict prefix of [l] *)
Definition sprefix {A} (p l : list A) : Prop := exists q, l = p ++ q /\ q <> [].

(** a buffer holding [data], cursor at [pos], built by the public interface *)
Definition buf_with (data : list ascii) (pos : N) : pack_buf := mk_pb data (len data) pos.

(** fields of a class that are serialised *)
Fixpoint drop_skipped (fs : flds) : flds :=
  match fs with
  | FNil => FNil
  | FCons MSkip _ fs' => drop_skipped fs'
  | FCons k t fs' => FCons k t (drop_skipped fs')
  end.
Fixpoint drop_skipped_vals (fs : flds) (vs : list val) : list val :=
  match fs, vs with
  | FCons MSkip _ fs', _ :: vs' => drop_skipped_vals fs' vs'
  | FCons _ _ fs', v :: vs' => v :: drop_skipped_vals fs' vs'
  | _, _ => []
  end.

(** * Specification of the JSON descriptor *)
From Verif Require Import Base SMap Desc_Model Json_Model.

Definition nodot (s : list ascii) : Prop := ~ In dot s.
Definition nodotb (s : list ascii) : bool := if in_dec ascii_dec dot s then false else true.

(** the description string for a path of member names *)
Definition pstr (cs : list (list ascii)) : list ascii := concat (map (fun k => dot :: k) cs).

(** following a path of member names *)
Fixpoint walk (x : jv) (cs : list (list ascii)) : fres :=
  match cs with
  | [] => FOk x
  | k :: cs' => match x with
                | JObj kvs => match mfind bcmp k kvs with None => FNotFound | Some y => walk y cs' end
                | _ => FNotObj
                end
  end.

(** ** Which types take part in the round trip.
    [top]: the value is the root of its JSON document (the argument of operator<< or an
    element of a container) as opposed to a class member. *)
Definition leafty (t : jty) : bool :=
  match t with TBool | TChar | TInt _ _ _ | TFlt | TDbl | TStr | TEnum _ => true | _ => false end.
(** char, short, int, long and their unsigned versions, with the conversions of 249-303 *)
Definition intty (w : via) (sgn : bool) (bits : Z) : bool :=
  match w, sgn with
  | ViaInt, true => (bits =? 8) || (bits =? 16) || (bits =? 32)
  | ViaInt, false => (bits =? 8) || (bits =? 16)
  | ViaU64, false => (bits =? 32) || (bits =? 64)
  | ViaI64, true => bits =? 64
  | _, _ => false
  end%Z.
Definition inrange (sgn : bool) (bits z : Z) : Prop :=
  (if sgn then - 2 ^ (bits - 1) <= z < 2 ^ (bits - 1) else 0 <= z < 2 ^ bits)%Z.
Fixpoint fnames (fs : flds) : list (list ascii) :=
  match fs with FNil => [] | FCons n _ fs' => n :: fnames fs' end.

Fixpoint wf (top : bool) (t : jty) {struct t} : Prop :=
  match t with
  | TBool | TChar | TFlt | TDbl | TStr => True
  | TInt w sgn bits => intty w sgn bits = true
  | TEnum ks => NoDup (map fst ks) /\ Forall (fun p => Forall (fun c => isspace c = false) (fst p)) ks
  | TSeq _ t' | TAssoc _ _ t' => wf true t'
  | TArr ds t' => top = false /\ ds <> [] /\ wf true t'
  | TPair a b => top = true /\ wf false a /\ wf false b
  | TTup _ => False
  | TStruct fs => NoDup (fnames fs) /\ wf_flds fs
  | TPtr t' => wf top t'
  | TPoly als => top = true /\ wf_alts als
  | TMap t' => wf false t'
  end
with wf_flds (fs : flds) : Prop :=
  match fs with FNil => True | FCons n t fs' => nodot n /\ n <> [] /\ wf false t /\ wf_flds fs' end
with wf_alts (als : alts) : Prop :=
  match als with
  | ANil => True
  | ACons _ fs als' => NoDup (bs "type" :: fnames fs) /\ wf_flds fs /\ wf_alts als'
  end.

Section Spec.
Variable klt : nat -> jval -> jval -> bool.
Variable narrow : N -> N.

(** in-order element list of an ordered container *)
Definition ordered (multi : bool) (c : nat) (l : list jval) : Prop :=
  ForallOrdPairs (fun x y => klt c y x = false /\ (multi = true \/ klt c x y = true)) l.

(** values of a type.  A null plain pointer is only included when its pointee is a
    leaf; a null polymorphic pointer always is. *)
Fixpoint ht (t : jty) (v : jval) {struct t} : Prop :=
  match t, v with
  | TBool, VB _ | TChar, VC _ | TDbl, VD _ | TStr, VS _ => True
  | TInt _ sgn bits, VI z => inrange sgn bits z
  | TFlt, VD d => narrow d = d
  | TEnum ks, VI z => In z (map snd ks)
  | TSeq fixed t', VL l => Forall (ht t') l /\ match fixed with Some n => length l = n | None => True end
  | TArr ds t', VL l => Forall (ht t') l /\ length l = fold_right Nat.mul 1 ds
  | TAssoc multi c t', VL l => Forall (ht t') l /\ ordered multi c l
  | TPair a b, VP x y => ht a x /\ ht b y
  | TTup ts, VL l => ht_tys ts l
  | TStruct fs, VL l => ht_flds fs l
  | TPtr t', VNul => leafty t' = true
  | TPtr t', VPtr x => ht t' x
  | TPoly _, VNul => True
  | TPoly als, VPoly tag l => ht_alts als tag l
  | TMap t', VM kvs =>
      msorted bcmp kvs /\ Forall (fun p => nodot (fst p) /\ fst p <> [] /\ ht t' (snd p)) kvs
  | _, _ => False
  end
with ht_tys (ts : tys) (l : list jval) {struct ts} : Prop :=
  match ts, l with
  | tnil, [] => True
  | tcons t ts', x :: l' => ht t x /\ ht_tys ts' l'
  | _, _ => False
  end
with ht_flds (fs : flds) (l : list jval) {struct fs} : Prop :=
  match fs, l with
  | FNil, [] => True
  | FCons _ t fs', x :: l' => ht t x /\ ht_flds fs' l'
  | _, _ => False
  end
with ht_alts (als : alts) (tag : list ascii) (l : list jval) {struct als} : Prop :=
  match als with
  | ANil => False
  | ACons tg fs als' => if beq tg tag then ht_flds fs l else ht_alts als' tag l
  end.

(** any object of the type (a destination), whatever its contents *)
Fixpoint shape (t : jty) (v : jval) {struct t} : Prop :=
  match t, v with
  | TSeq fixed t', VL l => Forall (shape t') l /\ match fixed with Some n => length l = n | None => True end
  | TArr ds t', VL l => Forall (shape t') l /\ length l = fold_right Nat.mul 1 ds
  | TPair a b, VP x y => shape a x /\ shape b y
  | TTup ts, VL l => shape_tys ts l
  | TStruct fs, VL l => shape_flds fs l
  | (TSeq _ _ | TArr _ _ | TPair _ _ | TTup _ | TStruct _), _ => False
  | _, _ => True
  end
with shape_tys (ts : tys) (l : list jval) {struct ts} : Prop :=
  match ts, l with
  | tnil, [] => True
  | tcons t ts', x :: l' => shape t x /\ shape_tys ts' l'
  | _, _ => False
  end
with shape_flds (fs : flds) (l : list jval) {struct fs} : Prop :=
  match fs, l with
  | FNil, [] => True
  | FCons _ t fs', x :: l' => shape t x /\ shape_flds fs' l'
  | _, _ => False
  end.

(** the JSON document of a value: members of a class become the members of an object,
    containers become arrays, a smart pointer is its target or {} *)
Fixpoint nest (ds : list nat) (l : list jv) : jv :=
  match ds with
  | [] => hd JNull l
  | n :: ds' => let stride := fold_right Nat.mul 1 ds' in
      JArr (map (fun i => nest ds' (skipn (i * stride) l)) (seq 0 n))
  end.
Fixpoint enc (t : jty) (v : jval) {struct t} : jv :=
  match t, v with
  | TBool, VB b => JBool b
  | TChar, VC c => JStr [c]
  | TInt _ _ _, VI z => JInt z
  | TFlt, VD d | TDbl, VD d => JReal d
  | TStr, VS s => JStr s
  | TEnum ks, VI z => JStr (ek_sym (ek_make ks) z)
  | TSeq _ t', VL l | TAssoc _ _ t', VL l => JArr (map (enc t') l)
  | TArr ds t', VL l => nest ds (map (enc t') l)
  | TPair a b, VP x y => JObj [(bs "first", enc a x); (bs "second", enc b y)]
  | TTup ts, VL l => JArr (enc_tys ts l)
  | TStruct fs, VL l => JObj (enc_flds fs l [])
  | TPtr t', VPtr x => enc t' x
  | TPoly als, VPoly tag l => JObj (enc_alts als tag l [(bs "type", JStr tag)])
  | TMap t', VM kvs => JObj (map (fun p => (fst p, enc t' (snd p))) kvs)
  | _, _ => JObj []
  end
with enc_tys (ts : tys) (l : list jval) {struct ts} : list jv :=
  match ts, l with tcons t ts', x :: l' => enc t x :: enc_tys ts' l' | _, _ => [] end
with enc_flds (fs : flds) (l : list jval) (kvs : list (list ascii * jv)) {struct fs} : list (list ascii * jv) :=
  match fs, l with
  | FCons n t fs', x :: l' => enc_flds fs' l' (mset bcmp n (enc t x) kvs)
  | _, _ => kvs
  end
with enc_alts (als : alts) (tag : list ascii) (l : list jval) (kvs : list (list ascii * jv)) {struct als} :=
  match als with
  | ANil => kvs
  | ACons tg fs als' => if beq tg tag then enc_flds fs l kvs else enc_alts als' tag l kvs
  end.
End Spec.

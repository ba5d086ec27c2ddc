(** * JSON descriptor: json_pack_base.h, json_pack_epilogue.h, polyAccessJsonPack.h,
    stringKeyMap_epilogue.h

    The json5_parser library is an empty submodule of the repository: its value type is
    modelled as the tree [jv], its [get_value<T>] by [get_*] below ([std::runtime_error]
    on a kind mismatch, like the json_spirit library it derives from; the repository's
    own test testJsoncd.cc relies on that).  Text parsing and printing are not modelled. *)
From Verif Require Import Base SMap Desc_Model.

(** json5_parser::mValue.  [int_type] values are stored as int64 or uint64; [JInt] keeps
    the mathematical value.  [JReal] carries the bits of a double. *)
Inductive jv : Type :=
| JNull
| JBool (b : bool)
| JInt (z : Z)
| JReal (d : N)
| JStr (s : list ascii)
| JArr (l : list jv)
| JObj (kvs : list (list ascii * jv)).

(** json_pack_error, json_object_not_found (derived from it), any other std::exception *)
Inductive jexn := EJson | ENotFound | EOther.
Inductive jr (A : Type) := JOk (a : A) | JErr (e : jexn) | JUB.
Arguments JOk {A} a.
Arguments JErr {A} e.
Arguments JUB {A}.
Definition jbind {A B} (m : jr A) (f : A -> jr B) : jr B :=
  match m with JOk a => f a | JErr e => JErr e | JUB => JUB end.
Notation "x <~ m ;; k" := (jbind m (fun x => k)) (at level 61, m at next level, right associativity).

(** json_pack_t: value plus the two flags, json_pack_base.h 98-116 *)
Record jp := mkjp { jo : jv; te : bool; tn : bool }.
Definition fresh : jp := mkjp JNull false false.
(** objectify 157: the assignment also overwrites the flags *)
Definition objectify (s : jp) : jp :=
  match jo s with JObj _ => s | _ => mkjp (JObj []) false false end.

(** json_find 227-246.  [fuel] bounds the recursion; [S (length name)] is enough. *)
Inductive fres := FOk (x : jv) | FNotFound | FNotObj.
Fixpoint json_find_f (fuel : nat) (x : jv) (name : list ascii) : fres :=
  match fuel with
  | O => FNotObj
  | S fuel' =>
      match name with
      | [] => FOk x
      | c :: n' =>
          let nm := if ascii_dec c dot then n' else name in
          match x with
          | JObj kvs =>
              match sfind dot nm with
              | None => match mfind bcmp nm kvs with None => FNotFound | Some y => FOk y end
              | Some p => match mfind bcmp (firstn p nm) kvs with
                          | None => FNotFound
                          | Some y => json_find_f fuel' y (skipn p nm)
                          end
              end
          | _ => FNotObj
          end
      end
  end.
Definition json_find (x : jv) (name : list ascii) : fres := json_find_f (S (length name)) x name.

(** The components [json_find] walks through, and assignment through the reference it
    returns. *)
Fixpoint split_dot (s : list ascii) : list (list ascii) :=
  match s with
  | [] => [[]]
  | c :: s' => if ascii_dec c dot then [] :: split_dot s'
               else match split_dot s' with k :: ks => (c :: k) :: ks | [] => [[c]] end
  end.
Definition comps (name : list ascii) : list (list ascii) :=
  match name with
  | [] => []
  | c :: n' => split_dot (if ascii_dec c dot then n' else name)
  end.
Fixpoint place (x : jv) (cs : list (list ascii)) (y : jv) : jv :=
  match cs with
  | [] => y
  | k :: cs' =>
      match x with
      | JObj kvs =>
          JObj (mset bcmp k (place (match mfind bcmp k kvs with Some z => z | None => JNull end) cs' y) kvs)
      | _ => x
      end
  end.

(** ** Types and values *)
(** intermediate type used by [getValue]: int, uint64, int64 (249-303) *)
Inductive via := ViaInt | ViaU64 | ViaI64.
Inductive jty : Type :=
| TBool
| TChar
| TInt (w : via) (sgn : bool) (bits : Z)
| TFlt
| TDbl
| TStr
| TEnum (ks : list (list ascii * Z))
| TSeq (fixed : option nat) (t : jty)   (* [Some n]: std::array, not resizable *)
| TArr (ds : list nat) (t : jty)        (* C array member, outermost dimension first *)
| TAssoc (multi : bool) (c : nat) (t : jty)
| TPair (a b : jty)
| TTup (ts : tys)
| TStruct (fs : flds)                   (* a base class is a member called base_... *)
| TPtr (t : jty)                        (* smart pointer, not polymorphic *)
| TPoly (als : alts)                    (* smart pointer to a PolyJson hierarchy *)
| TMap (t : jty)                        (* StringKeyMap *)
with tys := tnil | tcons (t : jty) (ts : tys)
with flds := FNil | FCons (n : list ascii) (t : jty) (fs : flds)
with alts := ANil | ACons (tag : list ascii) (fs : flds) (als : alts).
Scheme jty_mut := Induction for jty Sort Prop
  with tys_mut := Induction for tys Sort Prop
  with flds_mut := Induction for flds Sort Prop
  with alts_mut := Induction for alts Sort Prop.
Combined Scheme jty_mutind from jty_mut, tys_mut, flds_mut, alts_mut.

Inductive jval : Type :=
| VB (b : bool)
| VC (c : ascii)
| VI (z : Z)                 (* integers and enums *)
| VD (d : N)                 (* float, double *)
| VS (s : list ascii)
| VL (l : list jval)         (* containers, arrays, tuples, class members *)
| VP (a b : jval)
| VNul                       (* null smart pointer *)
| VPtr (v : jval)
| VPoly (tag : list ascii) (l : list jval)
| VM (kvs : list (list ascii * jval)).

(** conversion to an integer type of the given signedness and width *)
Definition wrap (sgn : bool) (bits : Z) (z : Z) : Z :=
  if sgn then ((z + 2 ^ (bits - 1)) mod 2 ^ bits - 2 ^ (bits - 1))%Z else (z mod 2 ^ bits)%Z.
Definition wrap_via (w : via) (z : Z) : Z :=
  match w with ViaInt => wrap true 32 z | ViaU64 => wrap false 64 z | ViaI64 => wrap true 64 z end.
Definition qnan : N := 0x7ff8000000000000.

Section Json.
(** comparators of ordered containers *)
Variable klt : nat -> jval -> jval -> bool.
(** double to float and back; int64/uint64 to double: floating point hardware *)
Variable narrow : N -> N.
Variable i2d : Z -> N.

(** insertion into std::set/map/multiset/multimap, on the in-order element list *)
Fixpoint ins (multi : bool) (c : nat) (x : jval) (l : list jval) : list jval :=
  match l with
  | [] => [x]
  | y :: l' => if klt c x y then x :: l
               else if klt c y x || multi then y :: ins multi c x l'
               else l
  end.

(** default-constructed value (indeterminate fundamentals shown as 0) *)
Fixpoint dflt (t : jty) : jval :=
  match t with
  | TBool => VB false
  | TChar => VC nul
  | TInt _ _ _ | TEnum _ => VI 0
  | TFlt | TDbl => VD 0
  | TStr => VS []
  | TSeq None _ | TAssoc _ _ _ => VL []
  | TSeq (Some n) t' => VL (repeat (dflt t') n)
  | TArr ds t' => VL (repeat (dflt t') (fold_right Nat.mul 1 ds))
  | TPair a b => VP (dflt a) (dflt b)
  | TTup ts => VL (dflt_tys ts)
  | TStruct fs => VL (dflt_flds fs)
  | TPtr _ | TPoly _ => VNul
  | TMap _ => VM []
  end
with dflt_tys (ts : tys) : list jval :=
  match ts with tnil => [] | tcons t ts' => dflt t :: dflt_tys ts' end
with dflt_flds (fs : flds) : list jval :=
  match fs with FNil => [] | FCons _ t fs' => dflt t :: dflt_flds fs' end.

(** valueof 249-321 *)
Definition valueof (t : jty) (v : jval) : option jv :=
  match t, v with
  | TBool, VB b => Some (JBool b)
  | TChar, VC c => Some (JStr [c])
  | TInt _ _ _, VI z => Some (JInt z)
  | (TFlt | TDbl), VD d => Some (JReal d)
  | TStr, VS s => Some (JStr s)
  | _, _ => None
  end.
(** getValue 251-321; [None] = get_value throws *)
Definition get_value (t : jty) (y : jv) : option jval :=
  match t, y with
  | TBool, JBool b => Some (VB b)
  | TChar, JStr s => Some (VC (hd nul s))
  | TInt w sgn bits, JInt z => Some (VI (wrap sgn bits (wrap_via w z)))
  | TFlt, JNull | TDbl, JNull => Some (VD qnan)
  | TFlt, JReal d => Some (VD (narrow d))
  | TFlt, JInt z => Some (VD (narrow (i2d z)))
  | TDbl, JReal d => Some (VD d)
  | TDbl, JInt z => Some (VD (i2d z))
  | TStr, JStr s => Some (VS s)
  | _, _ => None
  end.

(** json_packp for fundamental types and strings 323-356 *)
Definition pack_leaf (s : jp) (d : list ascii) (lf : jv) : jr jp :=
  match d with
  | [] => JOk (mkjp lf false false)
  | _ =>
      let s := objectify s in
      match json_find (jo s) (head d) with
      | FOk (JObj kvs) =>
          JOk (mkjp (place (jo s) (comps (head d)) (JObj (mset bcmp (tail d) lf kvs))) (te s) (tn s))
      | FOk _ | FNotObj => if te s then JErr EJson else JOk s
      | FNotFound => if tn s then JErr ENotFound else JOk s
      end
  end.
(** json_packp for AllOther types, object creation part: epilogue 36-60 *)
Definition pack_obj (s : jp) (d : list ascii) : jr jp :=
  let s := objectify s in
  match tail d with
  | [] => JOk s
  | _ =>
      match json_find (jo s) (head d) with
      | FOk (JObj kvs) =>
          match mfind bcmp (tail d) kvs with
          | Some _ => JOk s
          | None => JOk (mkjp (place (jo s) (comps (head d)) (JObj (mset bcmp (tail d) (JObj []) kvs))) (te s) (tn s))
          end
      | FOk _ | FNotObj => if te s then JErr EJson else JOk s
      | FNotFound => if te s then JErr ENotFound else JOk s
      end
  end.
(** containers 533-566; [arr] is the array filled by the loop *)
Definition pack_cont (s : jp) (d : list ascii) (arr : jr jv) : jr jp :=
  let s := objectify s in
  match json_find (jo s) (head d) with
  | FOk (JObj kvs) =>
      a <~ arr ;;
      JOk (mkjp (place (jo s) (comps (head d))
                   (match d with [] => a | _ => JObj (mset bcmp (tail d) a kvs) end)) (te s) (tn s))
  | FOk _ | FNotObj => if te s then JErr EJson else JOk s
  | FNotFound => if te s then JErr ENotFound else JOk s
  end.
(** C arrays 392-416 *)
Definition pack_carr (s : jp) (d : list ascii) (arr : jr jv) : jr jp :=
  match json_find (jo s) (head d) with
  | FOk (JObj kvs) =>
      a <~ arr ;;
      JOk (mkjp (place (jo s) (comps (head d)) (JObj (mset bcmp (tail d) a kvs))) (te s) (tn s))
  | FOk _ | FNotObj => if te s then JErr EJson else JOk s
  | FNotFound => if te s then JErr ENotFound else JOk s
  end.
(** json_pack_isarray 374-392 on the row-major element list *)
Fixpoint isarray (f : jval -> jr jv) (ds : list nat) (vals : list jval) {struct ds} : jr jv :=
  match ds with
  | [] => match vals with v :: _ => f v | [] => JUB end
  | n :: ds' =>
      let stride := fold_right Nat.mul 1 ds' in
      (fix loop (k : nat) (acc : list jv) (vals : list jval) : jr jv :=
         match k with
         | O => JOk (JArr (rev acc))
         | S k' => y <~ isarray f ds' vals ;; loop k' (y :: acc) (skipn stride vals)
         end) n [] vals
  end.
Fixpoint jmapm {A B} (f : A -> jr B) (l : list A) : jr (list B) :=
  match l with [] => JOk [] | x :: l' => y <~ f x ;; ys <~ jmapm f l' ;; JOk (y :: ys) end.

Definition first_ := bs ".first".
Definition second_ := bs ".second".
Definition type_ := bs ".type".

(** json_pack *)
Fixpoint pack (t : jty) (s : jp) (d : list ascii) (v : jval) {struct t} : jr jp :=
  match t with
  | TBool | TChar | TInt _ _ _ | TFlt | TDbl | TStr =>
      match valueof t v with Some lf => pack_leaf s d lf | None => JUB end
  | TEnum ks =>                                                     (* 472-477 *)
      match v with VI z => pack_leaf s d (JStr (ek_sym (ek_make ks) z)) | _ => JUB end
  | TSeq _ t' | TAssoc _ _ t' =>
      match v with
      | VL l => pack_cont s d (ys <~ jmapm (fun x => j <~ pack t' fresh [] x ;; JOk (jo j)) l ;; JOk (JArr ys))
      | _ => JUB
      end
  | TArr ds t' =>
      match v with
      | VL l => pack_carr s d (isarray (fun x => j <~ pack t' fresh [] x ;; JOk (jo j)) ds l)
      | _ => JUB
      end
  | TPair a b =>                                                    (* 518-523 *)
      match v with
      | VP x y => s1 <~ pack a (objectify s) (d ++ first_) x ;; pack b s1 (d ++ second_) y
      | _ => JUB
      end
  | TTup ts =>                                                      (* epilogue 175-192 *)
      match v with
      | VL l => let s' := match jo s with JArr _ => s | _ => mkjp (JArr []) false false end in
                pack_tup ts s' d l
      | _ => JUB
      end
  | TStruct fs =>
      match v with VL l => s1 <~ pack_obj s d ;; pack_flds fs s1 d l | _ => JUB end
  | TPtr t' =>                                                      (* polyAccessJsonPack 40-47 *)
      match v with
      | VNul => pack_obj s d
      | VPtr x => s1 <~ pack_obj s d ;; pack t' s1 d x
      | _ => JUB
      end
  | TPoly als =>                                                    (* 24-35 *)
      match v with
      | VNul => pack_obj s d
      | VPoly tag l => s1 <~ pack_obj s d ;; s2 <~ pack_leaf s1 (d ++ type_) (JStr tag) ;; pack_alts als tag s2 d l
      | _ => JUB
      end
  | TMap t' =>                                                      (* stringKeyMap_epilogue 9-29 *)
      match v with
      | VM kvs =>
          s1 <~ pack_obj s d ;;
          match json_find (jo s1) (head d) with
          | FOk (JObj _) =>
              (fix loop (l : list (list ascii * jval)) (s : jp) : jr jp :=
                 match l with
                 | [] => JOk s
                 | (k, x) :: l' => s' <~ pack t' s (d ++ dot :: k) x ;; loop l' s'
                 end) kvs s1
          | FOk _ | FNotObj => if te s1 then JErr EJson else JOk s1
          | FNotFound => if te s1 then JErr ENotFound else JOk s1
          end
      | _ => JUB
      end
  end
with pack_tup (ts : tys) (s : jp) (d : list ascii) (l : list jval) {struct ts} : jr jp :=
  match ts, l with
  | tnil, _ => JOk s
  | tcons t ts', x :: l' =>
      j <~ pack t fresh d x ;;
      match jo s with
      | JArr arr => pack_tup ts' (mkjp (JArr (arr ++ [jo j])) (te s) (tn s)) d l'
      | _ => JUB
      end
  | _, _ => JUB
  end
with pack_flds (fs : flds) (s : jp) (d : list ascii) (l : list jval) {struct fs} : jr jp :=
  match fs, l with
  | FNil, _ => JOk s
  | FCons n t fs', x :: l' => s' <~ pack t s (d ++ dot :: n) x ;; pack_flds fs' s' d l'
  | _, _ => JUB
  end
with pack_alts (als : alts) (tag : list ascii) (s : jp) (d : list ascii) (l : list jval) {struct als} : jr jp :=
  match als with
  | ANil => JUB
  | ACons tg fs als' => if beq tg tag then (s1 <~ pack_obj s d ;; pack_flds fs s1 d l)
                        else pack_alts als' tag s d l
  end.

(** looking up the value to unpack; json_pack_error is swallowed unless [te] *)
Definition find_or {A} (te : bool) (x : jv) (d : list ascii) (old : A) (k : jv -> jr A) : jr A :=
  match json_find x d with
  | FOk y => k y
  | FNotFound => if te then JErr ENotFound else JOk old
  | FNotObj => if te then JErr EJson else JOk old
  end.
Definition unpack_leaf (te : bool) (t : jty) (x : jv) (d : list ascii) (a : jval) : jr jval :=
  find_or te x d a (fun y => match get_value t y with Some v => JOk v | None => JErr EOther end).
(** json_unpack_isarray 418-435: [jval.get_array()[i]] is not bounds checked *)
Fixpoint unisarray (f : jv -> jval -> jr jval) (ds : list nat) (y : jv) (vals : list jval) {struct ds}
  : jr (list jval) :=
  match ds with
  | [] => match vals with v :: _ => r <~ f y v ;; JOk [r] | [] => JUB end
  | n :: ds' =>
      let stride := fold_right Nat.mul 1 ds' in
      match n, y with
      | O, _ => JOk []
      | _, JArr l =>
          (fix loop (k : nat) (l : list jv) (vals : list jval) : jr (list jval) :=
             match k with
             | O => JOk []
             | S k' => match l with
                       | [] => JUB
                       | y :: l' => r <~ unisarray f ds' y (firstn stride vals) ;;
                                    rs <~ loop k' l' (skipn stride vals) ;; JOk (r ++ rs)
                       end
             end) n l vals
      | _, _ => JErr EOther
      end
  end.
(** the loop of 505-510 *)
Fixpoint unseq (f : jv -> jval -> jr jval) (l : list jv) (vals : list jval) : jr (list jval) :=
  match l, vals with
  | y :: l', v :: vals' => r <~ f y v ;; rs <~ unseq f l' vals' ;; JOk (r :: rs)
  | _, _ => JOk vals
  end.
Definition not_array {A} (te : bool) (old : A) : jr A := if te then JErr EJson else JOk old.

(** json_unpack; [te] is throw_on_error (throw_on_not_found is not consulted) *)
Fixpoint unpack (te : bool) (t : jty) (x : jv) (d : list ascii) (a : jval) {struct t} : jr jval :=
  match t with
  | TBool | TChar | TInt _ _ _ | TFlt | TDbl | TStr => unpack_leaf te t x d a
  | TEnum ks =>                                                     (* 480-490 *)
      r <~ unpack_leaf te TStr x d (VS []) ;;
      match r with
      | VS tmp => JOk (VI (ek_val (ek_make ks) (filter (fun c => negb (isspace c)) tmp)))
      | _ => JUB
      end
  | TSeq fixed t' =>                                                (* 494-516 *)
      find_or te x d a (fun y =>
        match y with
        | JArr l =>
            match a with
            | VL vals =>
                let vals := match fixed with
                            | None => firstn (length l) (vals ++ repeat (dflt t') (length l))
                            | Some _ => vals
                            end in
                r <~ unseq (fun y v => unpack false t' y [] v) l vals ;; JOk (VL r)
            | _ => JUB
            end
        | _ => not_array te a
        end)
  | TArr ds t' =>                                                   (* 437-463 *)
      find_or te x d a (fun y =>
        match y with
        | JArr _ => match a with
                    | VL vals => r <~ unisarray (fun y v => unpack false t' y [] v) ds y vals ;; JOk (VL r)
                    | _ => JUB
                    end
        | _ => not_array te a
        end)
  | TAssoc multi c t' =>                                            (* 568-598 *)
      find_or te x d a (fun y =>
        match y with
        | JArr l =>
            r <~ (fix loop (l : list jv) (acc : list jval) : jr (list jval) :=
                    match l with
                    | [] => JOk acc
                    | y :: l' => v <~ unpack false t' y [] (dflt t') ;; loop l' (ins multi c v acc)
                    end) l [] ;; JOk (VL r)
        | _ => not_array te a
        end)
  | TPair ta tb =>                                                  (* 525-530 *)
      match a with
      | VP u v => r1 <~ unpack te ta x (d ++ first_) u ;; r2 <~ unpack te tb x (d ++ second_) v ;; JOk (VP r1 r2)
      | _ => JUB
      end
  | TTup ts =>                                                      (* epilogue 194-213 *)
      match ts with
      | tnil => JOk a
      | _ => match x with
             | JArr l => match a with
                         | VL vals => r <~ unpack_tup ts l d vals ;; JOk (VL r)
                         | _ => JUB
                         end
             | _ => JErr EOther
             end
      end
  | TStruct fs =>
      match a with VL l => r <~ unpack_flds te fs x d l ;; JOk (VL r) | _ => JUB end
  | TPtr t' =>                                                      (* polyAccessJsonPack 76-94 *)
      match unpack te t' x d (dflt t') with
      | JOk v => JOk (VPtr v)
      | JErr _ => JOk VNul
      | JUB => JUB
      end
  | TPoly als =>                                                    (* 60-74: looks at the root *)
      match x with
      | JObj kvs =>
          match mfind bcmp (bs "type") kvs with
          | Some _ =>
              r <~ unpack_leaf te TStr x (d ++ type_) (VS []) ;;
              match r with VS tag => unpack_alts te als tag x d | _ => JUB end
          | None => JOk VNul
          end
      | _ => JOk VNul
      end
  | TMap t' =>                                                      (* stringKeyMap_epilogue 31-58 *)
      find_or te x d a (fun y =>
        match y with
        | JObj kvs =>
            r <~ (fix loop (l : list (list ascii * jv)) (acc : list (list ascii * jval)) :=
                    match l with
                    | [] => JOk acc
                    | (k, _) :: l' => v <~ unpack te t' x (d ++ dot :: k) (dflt t') ;;
                                      loop l' (mset bcmp k v acc)
                    end) kvs [] ;; JOk (VM r)
        | JNull => JOk (VM [])
        | _ => not_array te a
        end)
  end
(** [auto tail=tupleTail(a)] is a copy: what is unpacked into it is lost *)
with unpack_tup (ts : tys) (l : list jv) (d : list ascii) (vals : list jval) {struct ts} : jr (list jval) :=
  match ts, vals with
  | tnil, _ => JOk vals
  | tcons t ts', v :: vals' =>
      match l with
      | [] => JUB                                   (* arr[0] of an empty vector *)
      | y :: l' => r <~ unpack false t y d v ;;
                   _lost <~ unpack_tup ts' l' d vals' ;; JOk (r :: vals')
      end
  | _, _ => JUB
  end
with unpack_flds (te : bool) (fs : flds) (x : jv) (d : list ascii) (l : list jval) {struct fs} : jr (list jval) :=
  match fs, l with
  | FNil, _ => JOk []
  | FCons n t fs', v :: l' =>
      r <~ unpack te t x (d ++ dot :: n) v ;; rs <~ unpack_flds te fs' x d l' ;; JOk (r :: rs)
  | _, _ => JUB
  end
(** [T::element_type::create(type)] then the virtual json_unpack *)
with unpack_alts (te : bool) (als : alts) (tag : list ascii) (x : jv) (d : list ascii) {struct als} : jr jval :=
  match als with
  | ANil => JErr EOther
  | ACons tg fs als' =>
      if beq tg tag then (r <~ unpack_flds te fs x d (dflt_flds fs) ;; JOk (VPoly tag r))
      else unpack_alts te als' tag x d
  end.
End Json.

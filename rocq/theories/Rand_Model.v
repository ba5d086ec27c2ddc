(** * Random initialisation: random_init_base.h, random_init_epilogue.h

    random_init(r, d, x) gives an object a random value: numbers, characters, strings and
    enumerations from r.rand(), containers with up to ten elements, members in order.  It
    is the descriptor used to make test data for the serialisers.

    What is kept: every branch of the overload set, the sequence in which rand() is called,
    the arithmetic in doubles (53 bits, to nearest, ties to even), conversions of doubles to
    integers that do not fit (undefined).
    What is simplified: the value given to a floating point number is represented by the
    draw it is made from (its text form is the subject of the libraries' streams); products
    below 2^-1022 are not rounded a second time (they are truncated to 0 anyway); containers
    that sort their elements are lists in order of insertion, with the test for an equivalent
    element as a parameter.
    Not modelled: unique_ptr (random_init_epilogue.h 69-75 calls json_pack_smart_ptr, which
    does not accept a random_init_t); the post-processing hook random_init_normalise, which
    does nothing unless specialised (random_init_epilogue.h 119). *)
From Verif Require Import Base.
Open Scope N_scope.

(** ** Doubles that are not negative: m/2^e *)
Definition dbl : Type := (N * N)%type.
(** division rounded to nearest, ties to even *)
Definition rne (a b : N) : N :=
  let q := a / b in let r := a mod b in
  if 2 * r <? b then q else if b <? 2 * r then q + 1 else if N.even q then q else q + 1.
(** a numerator rounded to 53 significant bits; the denominator, a power of two, does not matter *)
Definition rnd53 (p : N) : N :=
  if p <? 2 ^ 53 then p else let k := N.log2 p - 52 in rne p (2 ^ k) * 2 ^ k.
Definition fmul (n : N) (r : dbl) : dbl := (rnd53 (n * fst r), snd r).
Definition fadd (n : N) (r : dbl) : dbl := (rnd53 (n * 2 ^ snd r + fst r), snd r).
(** conversion to an integer *)
Definition trunc (r : dbl) : N := fst r / 2 ^ snd r.

(** random_init_t::rand(): random_init_base.h 24, double(std::rand())/RAND_MAX where
    std::rand() returned k, in 0..RAND_MAX *)
Definition RAND_MAX : N := 2147483647.
Definition std_rand (k : N) : dbl :=
  if k =? 0 then (0, 0) else let e := 83 - N.log2 k in (rne (k * 2 ^ e) RAND_MAX, e).

(** ** Types and values *)
Inductive ty : Type :=
| TInt (b : N)          (* an integral type whose largest value is 2^b-1 *)
| TBool | TChar | TFlt
| TStr                  (* basic_string<char>, also of wchar_t *)
| TEnum (keys : list (list ascii * Z))   (* enum_keysData<T>::keysData *)
| TSeq (t : ty)         (* vector, deque, list *)
| TStdArr (n : nat) (t : ty)   (* std::array: a sequence without resize() *)
| TPair (t u : ty)
| TSet (multi : bool) (t : ty)      (* set, multiset *)
| TMap (multi : bool) (k v : ty)    (* map, multimap *)
| TArr (n : nat) (t : ty)      (* n objects in an array of any rank *)
| TPtr                  (* T* *)
| TConst (t : ty) | TExcl (t : ty)   (* const T, Exclude<T> *)
| TShared (t : ty)      (* shared_ptr, auto_ptr to a class with a default constructor *)
| TSharedN (t : ty)     (* ... and without *)
| TObj (k : nat).       (* a class with a descriptor *)

Inductive val : Type :=
| VI (z : N) | VB (b : bool) | VC (c : N) | VF (d : dbl) | VS (s : list N) | VE (z : Z)
| VL (l : list val)     (* elements of a container or an array *)
| VP (v w : val)
| VPtr (p : N)
| VSome (v : val) | VNone
| VObj (l : list val).

(** outcome: the new value and the number of calls of rand() so far *)
Inductive R (A : Type) : Type := Done (a : A) (p : nat) | Undef | Fuel.
Arguments Done {A} _ _. Arguments Undef {A}. Arguments Fuel {A}.
Definition rbind {A B} (x : R A) (f : A -> nat -> R B) : R B :=
  match x with Done a p => f a p | Undef => Undef | Fuel => Fuel end.
Definition rmap {A B} (f : A -> B) (x : R A) : R B := rbind x (fun a p => Done (f a) p).

(** a value of the wrong shape is never reached from a value of the type *)
Definition on_obj (v : val) (f : list val -> R val) : R val := match v with VObj l => f l | _ => Undef end.
Definition on_list (v : val) (f : list val -> R val) : R val := match v with VL l => f l | _ => Undef end.

(** EnumKeys::size(): classdesc.h 803, the number of different values *)
Definition key_count (keys : list (list ascii * Z)) : N := len (nodup Z.eq_dec (map snd keys)).

Section Init.
(** the members of each class and the object its default constructor makes *)
Variable tbl : nat -> list ty * list val.
(** the results of the calls of r.rand(), which can be overridden *)
Variable g : nat -> dbl.
(** [has l x]: an element equivalent to x is among those of the set, or the keys of the map *)
Variable has : list val -> val -> bool.
Definition key (v : val) : val := match v with VP k _ => k | _ => v end.

(** a new object.  [new T] and [T v;] leave numbers unset where this has 0; they are set afterwards *)
Fixpoint dflt (t : ty) : val :=
  match t with
  | TInt _ => VI 0 | TBool => VB false | TChar => VC 0 | TFlt => VF (0, 0) | TStr => VS [] | TEnum _ => VE 0
  | TSeq _ | TSet _ _ | TMap _ _ _ => VL []
  | TStdArr n t | TArr n t => VL (repeat (dflt t) n)
  | TPair t u => VP (dflt t) (dflt u)
  | TPtr => VPtr 0
  | TConst t | TExcl t => dflt t
  | TShared _ | TSharedN _ => VNone
  | TObj k => VObj (snd (tbl k))
  end.

(** random_init_base.h 47-50: a=char((127-32)*r.rand()+32) *)
Definition rchar (p : nat) : N := trunc (fadd 32 (fmul 95 (g p))).
(** random_init_base.h 81-82 *)
Fixpoint rchars (n : nat) (p : nat) : list N := match n with O => [] | S n => rchar p :: rchars n (S p) end.

(** for (i...) random_init(r,d,*i) *)
Fixpoint each (f : val -> nat -> R val) (l : list val) (p : nat) : R (list val) :=
  match l with
  | [] => Done [] p
  | v :: l => rbind (f v p) (fun v p => rbind (each f l p) (fun l p => Done (v :: l) p))
  end.
(** the members of a class in order, as the descriptor printed by classdesc calls them *)
Fixpoint members (f : ty -> val -> nat -> R val) (ts : list ty) (l : list val) (p : nat) : R (list val) :=
  match ts, l with
  | [], [] => Done [] p
  | t :: ts, v :: l => rbind (f t v p) (fun v p => rbind (members f ts l p) (fun l p => Done (v :: l) p))
  | _, _ => Undef
  end.
(** resize(a, n): classdesc.h 468-470; 472-474 leaves a std::array as it is *)
Definition resize (t : ty) (l : list val) (n : nat) : list val := firstn n l ++ repeat (dflt t) (n - length l).
(** random_init_base.h 136-141: value_type v; random_init(r,d,v); a.insert(v) *)
Fixpoint inserts (multi : bool) (hs : list val -> val -> bool) (f : nat -> R val) (n : nat) (l : list val) (p : nat) : R (list val) :=
  match n with
  | O => Done l p
  | S n => rbind (f p) (fun v p => inserts multi hs f n (if (negb multi && hs l v)%bool then l else l ++ [v]) p)
  end.

Fixpoint rinit (fuel : nat) (t : ty) (v : val) (p : nat) {struct fuel} : R val :=
  match fuel with
  | O => Fuel
  | S fuel =>
    match t with
    (* random_init_base.h 40-45: a=T(numeric_limits<T>::max()*r.rand()) *)
    | TInt b => let z := trunc (fmul (rnd53 (2 ^ b - 1)) (g p)) in if z <? 2 ^ b then Done (VI z) (S p) else Undef
    (* 69-73 *)
    | TBool => Done (VB (2 ^ snd (g p) <=? 2 * fst (g p))) (S p)
    (* 47-55 *)
    | TChar => Done (VC (rchar p)) (S p)
    (* 57-67 *)
    | TFlt => Done (VF (g p)) (S p)
    (* 76-83 *)
    | TStr => let n := N.to_nat (trunc (fmul 10 (g p))) in Done (VS (rchars n (S p))) (S p + n)
    (* 104-110 *)
    | TEnum keys => match nth_error keys (N.to_nat (trunc (fmul (key_count keys) (g p)))) with
                    | Some (_, z) => Done (VE z) (S p)
                    | None => Undef
                    end
    (* 114-122 *)
    | TSeq t => on_list v (fun l => rmap VL (each (rinit fuel t) (resize t l (N.to_nat (trunc (fmul 10 (g p))))) (S p)))
    | TStdArr _ t => on_list v (fun l => rmap VL (each (rinit fuel t) l (S p)))
    (* 124-129 *)
    | TPair t u => match v with
                   | VP a b => rbind (rinit fuel t a p) (fun a p => rbind (rinit fuel u b p) (fun b p => Done (VP a b) p))
                   | _ => Undef
                   end
    (* 131-142 *)
    | TSet multi t => on_list v (fun l => rmap VL (inserts multi has (rinit fuel t (dflt t)) (N.to_nat (trunc (fmul 10 (g p)))) l (S p)))
    (* 131-142 with value_type pair<const K,V>: the key is constant, so 32-33 applies to it *)
    | TMap multi kt t => on_list v (fun l => rmap VL (inserts multi (fun l x => has (map key l) (key x)) (fun p => rmap (VP (dflt kt)) (rinit fuel t (dflt t) p)) (N.to_nat (trunc (fmul 10 (g p)))) l (S p)))
    (* 86-97: the elements are reached through const T&, so 32-33 applies to each *)
    | TArr _ _ => Done v p
    (* 145, 32-33, 148-149 *)
    | TPtr | TConst _ | TExcl _ => Done v p
    (* random_init_epilogue.h 24-31 *)
    | TShared t => rmap VSome (rinit fuel t (dflt t) p)
    (* random_init_epilogue.h 33-41 *)
    | TSharedN t => match v with VNone => Done VNone p | VSome a => rmap VSome (rinit fuel t a p) | _ => Undef end
    (* random_init_epilogue.h 113-116 and the descriptor of the class *)
    | TObj k => on_obj v (fun l => rmap VObj (members (rinit fuel) (fst (tbl k)) l p))
    end
  end.
End Init.

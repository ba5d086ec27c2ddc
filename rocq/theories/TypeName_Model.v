(** * Names of types: classdesc.h 572-757, 908-921, 1098-1103, typeName_epilogue.h *)
From Verif Require Import Base SMap Dec Rest_Model.

(** templates of one and of two types that have a specialisation of [tn] of their own *)
Inductive c1 := KShared | KAuto | KUnique | KWeak | KVector | KList | KDeque | KSet | KMultiset | KUSet | KUMultiset | KEnumH | KExclude.
Inductive c2 := KMap | KMultimap | KPair | KUMap | KUMultimap.
Definition head1 (k : c1) : list ascii :=
  match k with
  | KShared => bs "classdesc::shared_ptr" | KAuto => bs "auto_ptr" | KUnique => bs "std::unique_ptr" | KWeak => bs "std::weak_ptr"
  | KVector => bs "std::vector" | KList => bs "std::list" | KDeque => bs "std::deque" | KSet => bs "std::set"
  | KMultiset => bs "std::multiset" | KUSet => bs "std::unordered_set" | KUMultiset => bs "std::unordered_multiset"
  | KEnumH => bs "classdesc::Enum_handle" | KExclude => bs "classdesc::Exclude"
  end.
Definition head2 (k : c2) : list ascii :=
  match k with
  | KMap => bs "std::map" | KMultimap => bs "std::multimap" | KPair => bs "std::pair"
  | KUMap => bs "std::unordered_map" | KUMultimap => bs "std::unordered_multimap"
  end.
(** sizes of integral types *)
Inductive isz := S1 | S2 | S4 | S8 | S16.
Definition bits (s : isz) : N := match s with S1 => 8 | S2 => 16 | S4 => 32 | S8 => 64 | S16 => 128 end.

(** C++ types.  [CNamed]: the fundamental types, std::string and the classes and enumerations whose
    name is printed by classdesc -typeName; [CInt]: integral types without a specialisation; [CTmpl]:
    templates whose name is printed by classdesc; the number [o] of [C1] and [C2] stands for the other
    template arguments (comparison, hash, allocator), 0 for the default ones; [CFun]: a function or
    member function pointer type; [CIter]: a class with iterator traits. *)
Inductive cty :=
| CNamed (w : list ascii)
| CInt (unsigned : bool) (s : isz)
| CConst (t : cty) | CPtr (t : cty) | CRef (t : cty) | CRRef (t : cty)
| CArr (n : N) (t : cty)
| C1 (k : c1) (t : cty) (o : nat)
| C2 (k : c2) (a b : cty) (o : nat)
| CStdArr (n : N) (t : cty)
| CTmpl (w : list ascii) (args : list cty)
| CFun (signature : nat) | CStdFun (signature : nat)
| CIter (i : nat).

(** typeName_epilogue.h 17-23 *)
Definition integralTypeName (u : bool) (s : isz) : list ascii :=
  (if u then bs "unsigned int" else bs "int") ++ dec (bits s) ++ bs "_t".
(** The specialisations are: 589-619 [CNamed], epilogue 25-27 [CInt], 44-46 [CConst], 637-641 [CPtr],
    643-647 [CRef], epilogue 54-57 [CRRef], 913-921 [CArr], 649-757, 908-911, 1099-1103 [C1], [C2],
    677-681 [CStdArr], varTn 584-585 for the arguments of [CTmpl], 622-628 [CFun], 631-634 [CStdFun],
    epilogue 30-34 [CIter] *)
Fixpoint typeName (t : cty) : list ascii :=
  match t with
  | CNamed w => w
  | CInt u s => integralTypeName u s
  | CConst t => bs "const " ++ typeName t
  | CPtr t => typeName t ++ bs "*"
  | CRef t => typeName t ++ bs "&"
  | CRRef t => typeName t
  | CArr n t => typeName t ++ bs "[" ++ dec n ++ bs "]"
  | C1 k t _ => head1 k ++ bs "<" ++ typeName t ++ bs ">"
  | C2 k a b _ => head2 k ++ bs "<" ++ typeName a ++ bs "," ++ typeName b ++ bs ">"
  | CStdArr n t => bs "std::array<" ++ typeName t ++ bs "," ++ dec n ++ bs ">"
  | CTmpl w args =>
      w ++ bs "<" ++ (fix varTn (l : list cty) : list ascii :=
                        match l with
                        | [] => []
                        | a :: l' => match l' with [] => typeName a | _ :: _ => typeName a ++ bs "," ++ varTn l' end
                        end) args ++ bs ">"
  | CFun _ => bs "<function>"
  | CStdFun _ => bs "std::function<" ++ bs "<function>" ++ bs ">"
  | CIter _ => bs "iterator"
  end.
(** signature.h 21 with RESTProcess_epilogue.h 152-172: are the arguments of two functions the same? *)
Definition same_args (a b : list cty) : bool :=
  if list_eq_dec (list_eq_dec ascii_dec) (map typeName a) (map typeName b) then true else false.

(** ** functions in a registry: [Rest_Model.add] with the signatures the code uses *)
(** a function: which one, and the types of its arguments *)
Definition fn := (nat * list cty)%type.
(** RESTProcess_epilogue.h 152-172 *)
Definition functionSignature (f : fn) : nat * list (list ascii) := (fst f, map typeName (snd f)).
Definition register (m : list (list ascii * entry nat (list (list ascii)))) (d : list ascii) (fs : list fn) :=
  adds nat (list (list ascii)) (list_eq_dec (list_eq_dec ascii_dec)) (map (fun f => (d, OpAddFun (functionSignature f))) fs) m.

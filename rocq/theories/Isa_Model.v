(** * Inheritance tests and cloning: isa_base.h, polyBase.h *)
From Verif Require Import Base.

(** A C++ class: its identity (the address of its [type_info], one per type); whether it declares a
    virtual function itself; whether a descriptor was generated for it; whether it is the [T] of one of
    its direct bases [Poly<T,Base>] (polyBase.h 77-83); its bases; its members of class type with the
    suffix the generated descriptor gives them. *)
Inductive cls := Cls (id : nat) (virt desc clon : bool) (bases : list cls) (members : list (list ascii * cls)).
Definition cid (c : cls) : nat := let '(Cls i _ _ _ _ _) := c in i.
Definition cvirt (c : cls) : bool := let '(Cls _ v _ _ _ _) := c in v.
Definition cdesc (c : cls) : bool := let '(Cls _ _ d _ _ _) := c in d.
Definition cclon (c : cls) : bool := let '(Cls _ _ _ k _ _) := c in k.
Definition cbases (c : cls) : list cls := let '(Cls _ _ _ _ b _) := c in b.
Definition cmembers (c : cls) : list (list ascii * cls) := let '(Cls _ _ _ _ _ m) := c in m.

(** a class is polymorphic if it declares or inherits a virtual function (C++ standard, class.virtual) *)
Fixpoint poly (c : cls) : bool := let '(Cls _ v _ _ b _) := c in v || existsb poly b.
(** [typeid(x)] for a reference of class [c] into an object of class [dyn]: the class of the whole
    object if [c] is polymorphic, [c] otherwise (C++ standard, expr.typeid) *)
Definition typeid (dyn : nat) (c : cls) : nat := if poly c then dyn else cid c.

(** [isa(t,d,x)], isa_base.h 37-46, with the generated [access_isa] (classdesc.cc 1577-1592): bases by
    [isa_onbase] (58-60) with the same descriptor, members with theirs.  A class without a generated
    descriptor has the empty [access_isa] of 27-30.  Result: the addresses inserted into the set. *)
Fixpoint isa_run (d : list ascii) (dyn : nat) (c : cls) : list nat :=
  let '(Cls i v e k bases members) := c in
  match d with
  | [] => typeid dyn (Cls i v e k bases members) ::
          if e then flat_map (isa_run d dyn) bases
                    ++ flat_map (fun m => match m with (n, t) => isa_run (d ++ n) (cid t) t end) members
          else []
  | _ :: _ => []
  end.
(** [isa(x,y)], isa_base.h 68-74: [x] seen as [c] in an object of class [m], [y] as [c'] in one of [m'] *)
Definition isa (m c m' c' : cls) : bool :=
  existsb (Nat.eqb (typeid (cid m') c')) (isa_run [] (cid m) c).

(** ** cloning *)
(** the class whose [Poly<T,Base>::clone] (polyBase.h 81-82) is called for an object of class [m]: the
    nearest one; [None]: none or more than one, which the compiler rejects when the object is made.
    Simplified: an overrider in one branch of a diamond does not hide another branch's. *)
Fixpoint clone_class (m : cls) : option cls :=
  let '(Cls i v e k b ms) := m in
  if k then Some (Cls i v e k b ms) else
  match flat_map (fun c => match clone_class c with Some o => [o] | None => [] end) b with
  | [o] => Some o
  | _ => None
  end.
(** objects on the heap with their class *)
Definition heap := list (nat * cls).
Definition fresh (h : heap) : nat := S (fold_right Nat.max 0 (map fst h)).
Definition delete (a : nat) (h : heap) : heap := filter (fun p => negb (fst p =? a)) h.
(** [dynamic_cast<U*>]: does the class of the object have the base (or is it) [u]?  Simplified: bases
    are public and occur once *)
Fixpoint has_base (u : nat) (c : cls) : bool :=
  let '(Cls i _ _ _ b _) := c in (i =? u) || existsb (has_base u) b.
(** [cloneT<U>], polyBase.h 33-40: the owning pointer deletes the clone unless it is released *)
Definition cloneT (u : nat) (m : cls) (h : heap) : option (option nat * heap) :=
  match clone_class m with
  | None => None
  | Some k =>
    let a := fresh h in
    let h' := (a, k) :: h in
    if has_base u k then Some (Some a, h') else Some (None, delete a h')
  end.

(** * Specification of pointer serialisation: isomorphism of object graphs *)
From Verif Require Import Base Graph_Model.

(** ** graphs *)
Definition rename (f : nat -> nat) (x : field) : field :=
  match x with
  | FData b => FData b
  | FPtr ty p => FPtr ty (option_map f p)
  end.
(** objects reachable from a pointer *)
Inductive reach (h : heap) (r : option nat) : nat -> Prop :=
| reach_root n : r = Some n -> reach h r n
| reach_step n nd ty m : reach h r n -> h n = Some nd -> In (FPtr ty (Some m)) nd -> reach h r m.

(** The objects reachable from [r'] among the new objects [hp] are a copy of those
    reachable from [r] in [h]: same data, same sharing, same cycles, same null pointers.
    [base] is the number of objects that existed before: the copy is made of new ones. *)
Definition iso (h : heap) (r : option nat) (hp : list node) (r' : option nat) (base : nat) : Prop :=
  exists f : nat -> nat,
    (forall a b, reach h r a -> reach h r b -> f a = f b -> a = b) /\
    r' = option_map f r /\
    (forall n, reach h r n -> (base <= f n)%nat) /\
    (forall n nd, reach h r n -> h n = Some nd ->
       nth_error hp (f n) = Some (map (rename f) nd)).

Definition fits (ty : nat) (ns : list nat) (x : field) (k : gkind) : Prop :=
  match x, k with
  | FData b, GData n => length b = n
  | FPtr t p, GPtr t' => t = ty /\ t' = ty /\ match p with Some n => In n ns | None => True end
  | _, _ => False
  end.
(** [ns] lists the objects of a graph all of whose pointers have the C++ type [ty]; no
    dangling pointers; each object has the members of its class *)
Definition graph_ok (h : heap) (ns : list nat) (ty : nat) (layout : nat -> list gkind) : Prop :=
  NoDup ns /\ (len ns < 2^31)%N /\
  forall n, In n ns -> exists nd, h n = Some nd /\ Forall2 (fits ty ns) nd (layout ty).
Definition ptr_in (ns : list nat) (p : option nat) : Prop :=
  match p with Some n => In n ns | None => True end.

(** ** trees *)
Inductive tree_ok (layout : list fkind) : tree -> Prop :=
| tok_null : tree_ok layout TNull
| tok_node fs : fields_ok layout layout fs -> tree_ok layout (TNode fs)
with fields_ok (layout : list fkind) : list fkind -> tfields -> Prop :=
| fok_nil : fields_ok layout [] TFNil
| fok_data b ks fs : fields_ok layout ks fs ->
    fields_ok layout (KData (length b) :: ks) (TFData b fs)
| fok_ptr p ks fs : tree_ok layout p -> fields_ok layout ks fs ->
    fields_ok layout (KPtr :: ks) (TFPtr p fs).

(** * Common definitions

    Conventions used by all model files:
    - a C++ [char]/byte is a Coq [ascii]; buffers and [std::string]s are [list ascii];
    - a thrown C++ exception is [Throw], undefined behaviour is [UB];
    - sizes are [N]; where the C++ computes in [size_t] or [uint64] and the result
      can matter, the reduction modulo 2^64 is written explicitly. *)
From Coq Require Export Ascii String NArith ZArith Lia Bool List.
From Coq Require Export ZifyBool ZifyNat ZifyN.
Export ListNotations.
Open Scope list_scope.
Arguments N.add : simpl never.
Arguments N.sub : simpl never.
Arguments N.mul : simpl never.
Arguments N.of_nat : simpl never.
Arguments N.to_nat : simpl never.
Arguments N.pow : simpl never.
Arguments Z.pow : simpl never.
Arguments N.modulo : simpl never.
Arguments N.div : simpl never.
Arguments Z.modulo : simpl never.
Arguments Z.div : simpl never.
Arguments Z.add : simpl never.
Arguments Z.sub : simpl never.
Arguments Z.mul : simpl never.

(** [size_t] and [classdesc::uint64] are 64 bits wide (LP64). *)
Definition W : N := (2 ^ 64)%N.

(** length of a list as a size *)
Definition len {A} (l : list A) : N := N.of_nat (length l).

(** string literals as byte lists *)
Definition bs (s : string) : list ascii := list_ascii_of_string s.

(** Exceptions.  Only the information the properties talk about is kept. *)
Inductive exn : Type :=
| PackError        (* classdesc::pack_error *)
| BadAlloc         (* std::bad_alloc *)
| LengthError      (* std::length_error / std::bad_array_new_length *)
| OtherExn.        (* any other std::exception *)

(** Result of running an operation on a state of type [S]. *)
Inductive res (S A : Type) : Type :=
| Ok (a : A) (s : S)
| Throw (e : exn) (s : S)
| UB.                     (* undefined behaviour: nothing is known afterwards *)
Arguments Ok {S A} a s.
Arguments Throw {S A} e s.
Arguments UB {S A}.

Definition M (S A : Type) : Type := S -> res S A.
Definition ret {S A} (a : A) : M S A := fun s => Ok a s.
Definition throw {S A} (e : exn) : M S A := fun s => Throw e s.
Definition ub {S A} : M S A := fun _ => UB.
Definition bind {S A B} (m : M S A) (f : A -> M S B) : M S B :=
  fun s => match m s with
           | Ok a s' => f a s'
           | Throw e s' => Throw e s'
           | UB => UB
           end.
Notation "x <- m ;; k" := (bind m (fun x => k))
  (at level 61, m at next level, right associativity).
Notation "m ;;; k" := (bind m (fun _ => k))
  (at level 61, right associativity).

(** little-endian representation of [n] on [k] bytes (object representation of an
    unsigned integer on the assumed platform) *)
Fixpoint le (k : nat) (n : N) : list ascii :=
  match k with
  | O => []
  | S k' => ascii_of_N (n mod 256) :: le k' (n / 256)
  end.
Fixpoint unle (l : list ascii) : N :=
  match l with
  | [] => 0
  | c :: l' => (N_of_ascii c + 256 * unle l')%N
  end.

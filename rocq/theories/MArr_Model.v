(** * multiArray.h: MultiArray<T,Rank>

    A view is its offset from the start of the underlying array, its dimensions
    [dim[0..Rank-1]] and its stride; the rank is the number of dimensions.  Arithmetic is
    unbounded (the products of dimensions of an existing array do not overflow).

    Not modelled: for Rank>=3 the non-const [operator[]] passes a non-const [dim] to
    [MultiArray<T,Rank-1>], for which overload resolution prefers the variadic
    constructor, which does not accept a pointer; it can then not be instantiated.  The
    const [operator[]] and the iterators, modelled here, choose the other constructor. *)
From Verif Require Import Base.

Record ma := { off : N; dims : list N; str : N }.
Definition prod (l : list N) : N := fold_right N.mul 1%N l.
Definition rank (a : ma) : nat := length (dims a).

(** 33-45 (C++17): the fold multiplies in every dimension, then divides by the last.
    [None]: division by zero *)
Definition construct17 (l : list N) : option ma :=
  match l with
  | [] => Some {| off := 0; dims := []; str := 1 |}
  | _ => if (last l 0 =? 0)%N then None
         else Some {| off := 0; dims := l; str := (fold_left N.mul l 1 / last l 0)%N |}
  end.
(** 48-59 (before C++17): all but the last *)
Fixpoint stride11 (l : list N) (s : N) : N :=
  match l with [] => s | [_] => s | d :: l' => stride11 l' (s * d)%N end.
Definition construct11 (l : list N) : ma := {| off := 0; dims := l; str := stride11 l 1 |}.

(** 77: [dim[Rank-1]]; 148 for rank 1 *)
Definition size (a : ma) : N := last (dims a) 0%N.
(** 79-84 and 74-77: the sub-array's constructor copies the dimensions; [m_stride] keeps
    its initial value 1 (line 29) *)
Definition index (a : ma) (i : N) : ma :=
  {| off := (off a + i * str a)%N; dims := removelast (dims a); str := 1 |}.
(** [a[i1][i2]...]: the offset of the element, indices outermost first; the last step is
    [m_data[i]] of rank 1 (140-141) *)
Fixpoint addr (a : ma) (is : list N) : option N :=
  match is with
  | [] => None
  | [i] => if (rank a =? 1)%nat then Some (off a + i)%N else None
  | i :: is' => if (2 <=? rank a)%nat then addr (index a i) is' else None
  end.

(** 89-126: iterators; [array] is a sub-array, [stride] that of the array *)
Record iter := { it : ma; itstr : N }.
Definition it_begin (a : ma) : iter := {| it := {| off := off a; dims := removelast (dims a); str := 1 |}; itstr := str a |}.
(** [operator++], [operator+=] *)
Definition it_add (i : iter) (n : N) : iter :=
  {| it := {| off := (off (it i) + n * itstr i)%N; dims := dims (it i); str := str (it i) |}; itstr := itstr i |}.
Definition it_end (a : ma) : iter := it_add (it_begin a) (size a).
Definition it_eq (x y : iter) : bool := (off (it x) =? off (it y))%N.
(** [for (auto i=begin(); i!=end(); ++i)]: the sub-arrays visited; [None]: more than [fuel] *)
Fixpoint visit (fuel : nat) (i e : iter) : option (list ma) :=
  if it_eq i e then Some []
  else match fuel with
       | O => None
       | S f => match visit f (it_add i 1) e with Some l => Some (it i :: l) | None => None end
       end.

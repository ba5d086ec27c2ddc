(** * REST access to C arrays: RESTProcess_base.h 268-297, 719-816, 1648-1667,
    RESTProcess_epilogue.h 213-305

    A member [T a[d0][d1]] is registered as a view ([MultiArray], MArr_Model.v) of the
    memory that holds it.  Memory is a list of elements; reading or writing outside it is
    undefined behaviour.  What is done to one element is a parameter, as in
    Rest2_Model.v.

    From rank 3 on the C++ can not be instantiated (see MArr_Model.v); the functions are
    given for every rank, the theorems are about rank 1 and 2. *)
From Verif Require Import Base SMap Dec Desc_Model Json_Model Rest_Model Rest2_Model MArr_Model.

Section RestArr.
Variables E R : Type.
Variable eproc : E -> list ascii -> jv -> E * jr R.   (* mapAndProcess(query,args,element) *)
Variable get : E -> jv -> E * jr unit.                (* REST_PROCESS_BUFFER(j) >> element *)
Variable put : E -> jv.                               (* REST_PROCESS_BUFFER << element *)

(** what a command answers *)
Inductive aout :=
| AVoid                                  (* RESTProcessVoid *)
| AView (a : ma)                         (* a RESTProcessMultiArray with this view *)
| ASize (n : N)
| AElem (o : N) (r : R)                  (* what the element at offset [o] answered *)
| ARef (o : N)                           (* RESTProcessObject of the element *)
| ASig                                   (* the signatures of the view's type *)
| ANames (l : list (list ascii))
| ATypeT                                 (* typeName of the view's type *)
| AText (s : list ascii).

Definition rd (mem : list E) (o : N) : option E := nth_error mem (N.to_nat o).
Definition wr (mem : list E) (o : N) (e : E) : list E := update mem (N.to_nat o) e.

(** ** convert *)
(** RESTProcess_base.h 283-297: rank 1; [o] is where [xi] is, [n] what is left up to [end()] *)
Fixpoint conv1 (mem : list E) (o : N) (n : nat) (js : list jv) : list E * jr unit :=
  match js with
  | [] => (mem, JOk tt)
  | j :: js' =>
      match n with
      | O => (mem, JOk tt)
      | S n' =>
          match rd mem o with
          | None => (mem, JUB)
          | Some e => let '(e', r) := get e j in
                      match r with
                      | JOk _ => conv1 (wr mem o e') (o + 1)%N n' js'
                      | _ => (wr mem o e', r)
                      end
          end
      end
  end.
(** 267-281: rank 2 and more; [k] is the rank *)
Fixpoint convert (k : nat) (a : ma) (mem : list E) (j : jv) {struct k} : list E * jr unit :=
  match k with
  | O => (mem, JUB)
  | S k' =>
      match j with
      | JArr js =>
          match k' with
          | O => conv1 mem (off a) (N.to_nat (size a)) js
          | _ => (fix loop (i : iter) (mem : list E) (js : list jv) : list E * jr unit :=
                    match js with
                    | [] => (mem, JOk tt)
                    | j :: js' => if it_eq i (it_end a) then (mem, JOk tt)
                                  else let '(mem', r) := convert k' (it i) mem j in
                                       match r with
                                       | JOk _ => loop (it_add i 1) mem' js'
                                       | _ => (mem', r)
                                       end
                    end) (it_begin a) mem js
          end
      | _ => (mem, JOk tt)
      end
  end.

(** ** Commands *)
(** elemImpl, RESTProcess_epilogue.h 249-270, only needs the size *)
Definition elem_index (n : N) (rem : list ascii) : jr (option (N * nat)) := elemImpl unit (repeat tt (N.to_nat n)) rem.
(** sequenceProcess 213-236; [RESTProcess_t(obj)] is empty (526-528) *)
Definition view_process (a : ma) (mem : list E) (rem : list ascii) (args : jv) : list E * jr aout :=
  match rem with
  | [] =>
      match args with
      | JNull | JArr [] => (mem, JOk (AView a))
      | _ => let j := match args with JArr (x :: _) => x | _ => args end in
             let '(m, r) := convert (rank a) a mem j in
             (m, _ <~ r ;; JOk (AView a))
      end
  | _ => if startsWith rem (bs ".@size") then (mem, JOk (ASize (size a)))
         else if beq rem (bs "@enum.@list") then (mem, JOk (ANames []))
         else (mem, JErr EOther)
  end.
(** RESTProcessSequence<MultiArray<T,1>>::process 272-291; a MultiArray has neither
    push_back nor erase (RESTProcess_base.h 637-641, 664-669) *)
Definition row_process (a : ma) (mem : list E) (rem : list ascii) (args : jv) : list E * jr aout :=
  if startsWith rem (bs ".@elem") then
    match elem_index (size a) rem with
    | JErr e => (mem, JErr e)
    | JUB => (mem, JUB)
    | JOk None => (mem, JOk AVoid)
    | JOk (Some (i, idxEnd)) =>
        let o := (off a + i)%N in
        match rd mem o with
        | None => (mem, JUB)
        | Some x => let '(x', r) := eproc x (skipn idxEnd rem) args in
                    (wr mem o x', y <~ r ;; JOk (AElem o y))
        end
    end
  else if startsWith rem (bs ".@insert") || startsWith rem (bs ".@erase") then (mem, JErr EOther)
  else view_process a mem rem args.
(** RESTProcessSequence::list, 123-132 *)
Definition view_names : list (list ascii) :=
  [bs ".@elem"; bs ".@elemNoThrow"; bs ".@erase"; bs ".@insert"; bs ".@size"].
(** what RESTProcess_t::process 409-456 answers when the view is registered with
    process() [p], list() [l] and type() [ty] *)
Definition served (p : list E * jr aout) (l : list (list ascii)) (ty : aout) (mem : list E) (tl : list ascii) : list E * jr aout :=
  if beq tl (bs ".@signature") then (mem, JOk ASig)
  else if beq tl (bs ".@list") then (mem, JOk (ANames l))
  else if beq tl (bs ".@type") then (mem, JOk ty)
  else p.
(** mapAndProcess 506-519 of a sub-array.  It is registered under the empty name
    (RESTProcess_base.h 826-829) as a RESTProcessValueSequence, which is a
    RESTProcessSequence and a wrapper; process() of a sub-array of rank 2 or more treats
    every index as the sequence does (rank 3 and more can not be instantiated). *)
Definition row_map (a : ma) (mem : list E) (q : list ascii) (args : jv) : list E * jr aout :=
  match q with
  | [] => row_process a mem [] args
  | _ => served (row_process a mem q args) view_names ATypeT mem q
  end.
(** RESTProcessMultiArray<T>::process 293-305; rank 1 is a RESTProcessSequence
    (RESTProcess_base.h 795-816) *)
Definition arr_process (a : ma) (mem : list E) (rem : list ascii) (args : jv) : list E * jr aout :=
  if (rank a <=? 1)%nat then row_process a mem rem args
  else if startsWith rem (bs ".@elem") then
    match elem_index (size a) rem with
    | JErr e => (mem, JErr e)
    | JUB => (mem, JUB)
    | JOk None => (mem, JOk AVoid)
    | JOk (Some (i, idxEnd)) =>
        let x := it_add (it_begin a) i in
        if it_eq x (it_end a) then (mem, JOk AVoid)
        else let '(mem', r) := row_map (it x) mem (skipn idxEnd rem) args in
             (mem', y <~ r ;; JOk (if (idxEnd =? length rem)%nat then AView (it x) else y))
    end
  else view_process a mem rem args.
(** A member registered under its name, and the rest [tl] of a query.  list() and type()
    of rank 2 and more are those of RESTProcess_base.h 768-769, where the text in quotes
    is meant as a call *)
Definition arr_rest (a : ma) (mem : list E) (tl : list ascii) (args : jv) : list E * jr aout :=
  if (rank a <=? 1)%nat then served (arr_process a mem tl args) view_names ATypeT mem tl
  else served (arr_process a mem tl args) [] (AText (bs "typeName<T>()")) mem tl.

(** ** The calls from Python: getElem and setElem, RESTProcess_base.h 771-786, 802-811.
    An element of rank 1 out of bounds throws (710-713) *)
Definition getElem (a : ma) (mem : list E) (i : N) : jr aout :=
  if (i <? size a)%N then JOk (if (rank a <=? 1)%nat then ARef (off a + i) else AView (index a i))
  else if (rank a <=? 1)%nat then JErr EOther else JOk AVoid.
Definition setElem (a : ma) (mem : list E) (i : N) (j : jv) : list E * jr aout :=
  if (i <? size a)%N then
    if (rank a <=? 1)%nat then
      match rd mem (off a + i) with
      | None => (mem, JUB)
      | Some e => let '(e', r) := get e j in (wr mem (off a + i) e', _ <~ r ;; JOk (ARef (off a + i)))
      end
    else let '(mem', r) := convert (rank a - 1) (index a i) mem j in (mem', _ <~ r ;; JOk (AView (index a i)))
  else if (rank a <=? 1)%nat then (mem, JErr EOther) else (mem, JOk AVoid).

(** ** asBuffer(): RESTProcess_base.h 763-766.  A sequence is written as the array of what
    its iterators visit.  [None]: outside the memory *)
Fixpoint json_row (mem : list E) (o : N) (n : nat) : option (list jv) :=
  match n with
  | O => Some []
  | S n' => match rd mem o, json_row mem (o + 1)%N n' with
            | Some e, Some l => Some (put e :: l)
            | _, _ => None
            end
  end.
Fixpoint all_some {A} (l : list (option A)) : option (list A) :=
  match l with
  | [] => Some []
  | Some x :: l' => match all_some l' with Some r => Some (x :: r) | None => None end
  | None :: _ => None
  end.
Fixpoint json_of (k : nat) (a : ma) (mem : list E) : option jv :=
  match k with
  | O => None
  | S O => match json_row mem (off a) (N.to_nat (size a)) with Some l => Some (JArr l) | None => None end
  | S k' => match visit (N.to_nat (size a)) (it_begin a) (it_end a) with
            | Some l => match all_some (map (fun s => json_of k' s mem) l) with Some r => Some (JArr r) | None => None end
            | None => None
            end
  end.
End RestArr.

(** RESTProcess_base.h 1655-1667 with multiArray.h 64-67: the dimensions are handed over
    in the order in which they are declared; [base] is where the array starts *)
Definition of_c_array (base : N) (ds : list N) : option ma :=
  match construct17 ds with Some a => Some {| off := base; dims := dims a; str := str a |} | None => None end.

(** * Description strings, enum symbol tables and [dump] lines

    classdesc.h 946-957 (head, tail), 1130-1136 (basename), 763-800 (EnumKeys),
    871-886 (Enum_handle); dump_base.h 43-56 (format). *)
From Verif Require Import Base SMap.

Definition dot : ascii := "."%char.
Definition nul : ascii := "000"%char.

(** [std::string::rfind(c)]: index of the last occurrence *)
Fixpoint rfind (c : ascii) (s : list ascii) : option nat :=
  match s with
  | [] => None
  | x :: s' => match rfind c s' with
               | Some i => Some (S i)
               | None => if ascii_dec x c then Some O else None
               end
  end.
(** [std::string::find(c)]: index of the first occurrence *)
Fixpoint sfind (c : ascii) (s : list ascii) : option nat :=
  match s with
  | [] => None
  | x :: s' => if ascii_dec x c then Some O else option_map S (sfind c s')
  end.

(** classdesc.h 946-950 *)
Definition tail (x : list ascii) : list ascii :=
  skipn (match rfind dot x with None => O | Some i => S i end) x.
(** classdesc.h 953-957 *)
Definition head (x : list ascii) : list ascii :=
  match rfind dot x with None => x | Some i => firstn i x end.

(** [isalnum] in the "C" locale; for bytes >= 128 (a negative [char] passed to a
    <ctype.h> function is out of its domain; glibc answers false) we take false *)
Definition isalnum (c : ascii) : bool :=
  let n := N_of_ascii c in
  ((48 <=? n) && (n <=? 57) || (65 <=? n) && (n <=? 90) || (97 <=? n) && (n <=? 122))%N.
(** [isspace] in the "C" locale *)
Definition isspace (c : ascii) : bool :=
  let n := N_of_ascii c in ((n =? 32) || (9 <=? n) && (n <=? 13))%N.

(** classdesc.h 1130-1136, for a type whose [typeName] is [tn] *)
Definition basename (tn : list ascii) : list ascii :=
  dot :: map (fun c => if isalnum c then c else "_"%char) (bs "base_" ++ tn).

(** ** EnumKeys: classdesc.h 772-800.  [data] is the array of (name, value) pairs. *)
Record enumkeys := { s2v : list (list ascii * Z); v2s : list (Z * list ascii) }.
Definition ek_add (e : enumkeys) (d : list ascii * Z) : enumkeys :=
  {| s2v := mset bcmp (fst d) (snd d) (s2v e); v2s := mset Z.compare (snd d) (fst d) (v2s e) |}.
Definition ek_make (data : list (list ascii * Z)) : enumkeys :=
  fold_left ek_add data {| s2v := []; v2s := [] |}.
(** [operator()(std::string)] 787-791; [T(0)] if absent.  [T] is an enum whose values
    are ints (see C10 for wider ones). *)
Definition ek_val (e : enumkeys) (s : list ascii) : Z :=
  match mfind bcmp s (s2v e) with Some v => v | None => 0%Z end.
(** [operator()(int)] 792-797 *)
Definition ek_sym (e : enumkeys) (v : Z) : list ascii :=
  match mfind Z.compare v (v2s e) with Some s => s | None => [] end.
(** [has] 800-801 *)
Definition ek_has_val (e : enumkeys) (v : Z) : bool :=
  match mfind Z.compare v (v2s e) with Some _ => true | None => false end.
Definition ek_has_sym (e : enumkeys) (s : list ascii) : bool :=
  match mfind bcmp s (s2v e) with Some _ => true | None => false end.
(** [vbegin..vend] 821-836 and [sbegin..send] 808-819 *)
Definition ek_vals (e : enumkeys) : list Z := map fst (v2s e).
Definition ek_syms (e : enumkeys) : list (list ascii) := map snd (v2s e).
Definition ek_size (e : enumkeys) : N := len (v2s e).

(** ** dump: dump_base.h 43-56.  Returns (ndots, text). *)
Fixpoint fmt_loop (c tl : list ascii) (nd : nat) (o : list ascii) : nat * list ascii * list ascii :=
  match c with
  | [] => (nd, tl, o)
  | x :: c' => if ascii_dec x nul then (nd, tl, o)
               else if ascii_dec x dot then fmt_loop c' c' (S nd) (o ++ bs " ")
               else fmt_loop c' tl nd o
  end.
(** a NUL-terminated C string inside a byte list *)
Fixpoint cstr (s : list ascii) : list ascii :=
  match s with
  | [] => []
  | x :: s' => if ascii_dec x nul then [] else x :: cstr s'
  end.
Definition format (d : list ascii) : nat * list ascii :=
  let '(nd, tl, o) := fmt_loop d d O [] in (nd, o ++ cstr tl ++ bs ":").

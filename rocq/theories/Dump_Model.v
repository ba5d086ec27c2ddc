(** * The output of dump: dump_base.h, dump_epilogue.h *)
From Verif Require Import Base Dec Desc_Model.

(** An object as [dump] sees it.  The texts are what [operator<<] prints for the value.
    [VFund]: fundamental types; [VStr]: strings, C strings, Enum_handles (78 and 138 use [dump_basic] too);
    [VNums]: a container ([arr = false]) or C array ([arr = true]) of fundamental types; [VSeq]: of
    others; [VPair]: std::pair; [VObj]: a class with a generated descriptor, its bases (suffix empty)
    and members (suffix [.name]) in the order the descriptor visits them; [VPtr]: shared_ptr;
    [VNone]: Exclude and member functions. *)
Inductive val :=
| VFund (s : list ascii)
| VStr (s : list ascii)
| VNums (arr : bool) (l : list (list ascii))
| VSeq (arr : bool) (l : list val)
| VPair (a b : val)
| VObj (parts : list (list ascii * val))
| VPtr (o : option val)
| VNone.

Definition endl : list ascii := ["010"%char].
(** [setw(n) << s] for a string with at most [n] characters *)
Definition setw (n : nat) (s : list ascii) : list ascii := repeat " "%char (n - length s) ++ s.
(** dump_basic 59-63 *)
Definition dump_basic (d s : list ascii) : list ascii := snd (format d) ++ s ++ endl.
(** dump_container 99-110, fundamental elements *)
Definition dump_nums (d : list ascii) (l : list (list ascii)) : list ascii :=
  snd (format d) ++ flat_map (fun x => setw (fst (format d)) [] ++ x) l ++ endl.
(** [dump_container] 112-129 prints these around an element *)
Definition opening (tab : nat) : list ascii := setw (tab + 2) (bs "{") ++ endl.
Definition closing (tab : nat) : list ascii := setw (tab + 2) (bs "}") ++ endl.
(** 124-126 *)
Definition element (d : list ascii) (i : N) : list ascii := d ++ bs "[" ++ dec i ++ bs "]".

(** Classes: the generic [dump], dump_epilogue.h 61-66, with [Format] 36-58 and the generated
    descriptor; containers: 131-134; arrays 141-152; pairs: the three overloads 76-97; pointers 163-171. *)
Fixpoint dump (d : list ascii) (v : val) {struct v} : list ascii :=
  match v with
  | VFund s | VStr s => dump_basic d s
  | VNums arr l => if arr && (length l =? 0)%nat then [] else dump_nums d l
  | VSeq arr l =>
      if arr && (length l =? 0)%nat then [] else
      snd (format d) ++ endl ++
      (fix go (i : N) (l : list val) {struct l} : list ascii :=
         match l with
         | [] => []
         | x :: l' => opening (fst (format d)) ++ dump (element d i) x ++ closing (fst (format d)) ++ go (i + 1)%N l'
         end) 0%N l
  | VPair a b =>
      match a with
      | VFund k => bs "[" ++ k ++ bs "]=" ++ match b with VFund x => x | _ => dump d b end
      | _ => dump (bs "[." ++ d ++ bs "]=") a ++ dump d b
      end
  | VObj parts =>
      snd (format d) ++ bs "{" ++ endl ++
      (fix go (l : list (list ascii * val)) : list ascii :=
         match l with [] => [] | (s, x) :: l' => dump (d ++ s) x ++ go l' end) parts
      ++ closing (fst (format d))
  | VPtr (Some x) => dump d x
  | VPtr None => dump_basic d (bs "null")
  | VNone => []
  end.

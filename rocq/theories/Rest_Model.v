(** * REST registry: RESTProcess_base.h, RESTProcess_epilogue.h, signature.h

    The registry [RESTProcess_t] is a [std::map<std::string,RPPtr>]: query dispatch,
    registration of objects and functions, choice between overloads.
    [REST_PROCESS_BUFFER] is json_pack_t; its value is the tree [jv] of Json_Model.v. *)
From Verif Require Import Base SMap Desc_Model Json_Model.

(** ** Dispatch of a query, RESTProcess_epilogue.h 409-504 *)
Section Dispatch.
Variable E : Type.                     (* registered objects *)
Variable wrapper : E -> bool.          (* dynamic_cast<RESTProcessWrapperBase*> succeeds *)

Inductive answer :=
| AEnums (names : list (list ascii))    (* "@enum.@list" *)
| AOutOfRange                           (* std::out_of_range from substr *)
| ASignature (e : E)
| AList (e : E)
| AType (e : E)
| ACall (e : E) (tail : list ascii)     (* r->second->process(tail, jin) *)
| ANotFound.                            (* throw "Command not found" *)

Definition registry := list (list ascii * E).

(** 413-420.  [i.first.find("@enum")==0] then [substr(6)], which throws if the name has
    5 bytes *)
Definition prefixb (p s : list ascii) : bool := beq (firstn (length p) s) p.
Fixpoint enums (m : registry) : option (list (list ascii)) :=
  match m with
  | [] => Some []
  | (k, _) :: m' =>
      if prefixb (bs "@enum") k then
        if length k <? 6 then None
        else match enums m' with Some l => Some (skipn 6 k :: l) | None => None end
      else enums m'
  end.

(** 437-456, the [case 1] branch.  [count] of a [std::map] is 0 or 1, so that the
    [default] branch 457-503 is never reached. *)
Definition at_entry (e : E) (cmdEnd : nat) (tail : list ascii) : answer :=
  if beq tail (bs ".@signature") then ASignature e
  else if beq tail (bs ".@list") then AList e
  else if beq tail (bs ".@type") then AType e
  else if negb (cmdEnd =? 0) || wrapper e then ACall e tail
  else ANotFound.

(** 422-503.  [cmdEnd] is [None] for [npos].  Every round shortens [cmd], so that
    [S (length cmd)] rounds are enough; running out of fuel is [None]. *)
Fixpoint dispatch (fuel : nat) (m : registry) (query cmd : list ascii) (cmdEnd : option nat) : option answer :=
  match fuel with
  | O => None
  | S f =>
      let '(n, c) := match cmdEnd with Some n => (n, cmd) | None => (O, []) end in
      let tail := skipn n query in
      match mfind bcmp c m with
      | None => if n =? 0 then Some ANotFound
                else let e := rfind dot c in
                     dispatch f m query (match e with Some p => firstn p c | None => c end) e
      | Some e => Some (at_entry e n tail)
      end
  end.

(** RESTProcess_t::process 409-504 *)
Definition process (m : registry) (query : list ascii) : option answer :=
  if beq query (bs "@enum.@list") then
    Some (match enums m with Some l => AEnums l | None => AOutOfRange end)
  else dispatch (S (S (length query))) m query query (Some (length query)).
End Dispatch.
Arguments AEnums {E} names.
Arguments AOutOfRange {E}.
Arguments ASignature {E} e.
Arguments AList {E} e.
Arguments AType {E} e.
Arguments ACall {E} e tail.
Arguments ANotFound {E}.

(** ** Choice between overloads, RESTProcess_epilogue.h 187-211 *)
(** RESTProcess_base.h 129 *)
Definition maxMatchScore : N := 1000000.

Section Overload.
Variable F : Type.
Variable score : F -> N.          (* matchScore(arguments) *)
Inductive choice := CVoid | CNone | CAmbiguous | CPick (f : F).

(** 194-205.  [bestCount] is an int; it is at most the number of overloads. *)
Definition ostep (st : F * N * N) (i : F) : F * N * N :=
  let '(best, bestScore, cnt) := st in
  let s := score i in
  if (s <? bestScore)%N then (i, s, 1%N)
  else if (s =? bestScore)%N then (best, bestScore, (cnt + 1)%N)
  else st.
Definition overload (fs : list F) : choice :=
  match fs with
  | [] => CVoid
  | front :: _ =>
      let '(best, _, cnt) := fold_left ostep fs (front, maxMatchScore, 0%N) in
      if (maxMatchScore <=? score best)%N then CNone
      else if (1 <? cnt)%N then CAmbiguous
      else CPick best
  end.
End Overload.
Arguments CVoid {F}.
Arguments CNone {F}.
Arguments CAmbiguous {F}.
Arguments CPick {F} f.

(** ** Match scores, RESTProcess_base.h 1229-1464 *)
(** Parameter types as the overloads of [matches] distinguish them. *)
Inductive pty : Type :=
| PBool | PInt | PReal | PStr (* std::string, const char* *) | PEnum
| PObj (cls : N)            (* default constructible class, not a container *)
| PCont (e : pty)           (* is_container *)
| PConstRef (t : pty)
| PNever.                   (* pointers, mutable references, abstract and non default constructible classes *)

Section Score.
(** whether [REST_PROCESS_BUFFER(x)>>test] completes for an object of class [cls],
    1275-1281 *)
Variable objok : N -> jv -> bool.

(** 1232-1337 *)
Fixpoint matches (t : pty) (x : jv) : bool :=
  match t with
  | PBool => match x with JBool _ => true | _ => false end
  | PInt => match x with JInt _ => true | _ => false end
  | PReal => match x with JReal _ => true | _ => false end
  | PStr | PEnum => match x with JStr _ => true | _ => false end
  | PObj c => match x with JObj _ => objok c x | _ => false end
  | PCont e => match x with JArr l => forallb (matches e) l | _ => matches e x end
  | PConstRef t' => matches t' x
  | PNever => false
  end.
(** 1339-1387 *)
Fixpoint partially (t : pty) (x : jv) : bool :=
  match t with
  | PReal => match x with JReal _ | JInt _ | JNull => true | _ => false end
  | PCont e => match x with JArr l => forallb (partially e) l | _ => partially e x end
  | PConstRef t' => partially t' x
  | _ => matches t x
  end.
(** 1389-1394 *)
Definition argMatchScore (t : pty) (x : jv) : N :=
  if matches t x then 0%N else if partially t x then 1%N else maxMatchScore.

(** [unsigned]: 32 bits *)
Definition u32 (z : Z) : N := Z.to_N (z mod 2 ^ 32).
Definition jat (l : list jv) (i : nat) : jv := nth i l JNull.   (* used below the length *)
Definition pat (ps : list pty) (i : nat) : pty := nth i ps PNever.

(** [10*(arr.size()-NN)], with NN the number of parameters *)
Definition surplus (l : list jv) (nn : nat) : Z := (10 * (Z.of_nat (length l) - Z.of_nat nn))%Z.

(** MatchScore<F,N,NN> 1397-1464.  [ps] are the parameter types (Arg<F,i> is element
    i-1), [nn] is NN. *)
Fixpoint mscore (n nn : nat) (ps : list pty) (x : jv) : N :=
  match n with
  | O => match x with
         | JNull => 0%N
         | JArr l => u32 (10 * Z.of_nat (length l) - Z.of_nat nn)
         | _ => 10%N
         end
  | S O => match x with
           | JNull => maxMatchScore
           | JArr [] => maxMatchScore
           | JArr l => u32 (Z.of_N (argMatchScore (pat ps 0) (jat l 0)) + surplus l nn)
           | _ => argMatchScore (pat ps 0) x
           end
  | S (S O) => match x with
               | JArr l => if length l <? 2 then maxMatchScore
                           else u32 (Z.of_N (argMatchScore (pat ps 0) (jat l 0))
                                     + Z.of_N (argMatchScore (pat ps 1) (jat l 1)) + surplus l nn)
               | _ => maxMatchScore
               end
  | S n' => match x with
            | JArr l => if length l <? n then maxMatchScore
                        else u32 (Z.of_N (argMatchScore (pat ps n') (jat l n')) + Z.of_N (mscore n' nn ps x))
            | _ => maxMatchScore
            end
  end.
(** RESTProcessFunction::matchScore 1504-1505 *)
Definition matchScore (ps : list pty) (x : jv) : N := mscore (length ps) (length ps) ps x.
End Score.

(** ** Registration, RESTProcess_base.h 348-398 *)
Section Registration.
Variables O S : Type.                     (* objects and functions; signatures *)
Variable S_eq_dec : forall a b : S, {a = b} + {a <> b}.

Inductive entry :=
| EObj (o : O)
| EFun (f : O * S)                       (* RESTProcessFunctionBase *)
| EOver (fs : list (O * S)).             (* RESTProcessOverloadedFunction *)

(** 379-386: the loop over the existing overloads *)
Fixpoint replace_or_append (f : O * S) (fs : list (O * S)) : list (O * S) :=
  match fs with
  | [] => [f]
  | g :: fs' => if S_eq_dec (snd g) (snd f) then f :: fs' else g :: replace_or_append f fs'
  end.

Inductive op :=
| OpAdd (o : O)                          (* add(d, RESTProcessBase* ) 360-366 *)
| OpAddFun (f : O * S)                   (* add(d, RESTProcessFunctionBase* ) 368-398 *)
| OpEmplace (o : O).                     (* emplace, used for fundamental types 587-590 *)

Definition add1 (old : option entry) (o : op) : option entry :=
  match o with
  | OpAdd x => Some (EObj x)
  | OpAddFun f =>
      match old with
      | None => Some (EFun f)
      | Some (EOver fs) => Some (EOver (replace_or_append f fs))
      | Some (EFun g) => if S_eq_dec (snd g) (snd f) then Some (EFun f) else Some (EOver [g; f])
      | Some (EObj _) => Some (EFun f)
      end
  | OpEmplace x => match old with None => Some (EObj x) | Some _ => old end
  end.
(** one registration under the name [d] *)
Definition add (m : list (list ascii * entry)) (d : list ascii) (o : op) : list (list ascii * entry) :=
  match add1 (mfind bcmp d m) o with
  | Some e => mset bcmp d e m
  | None => m
  end.
Definition adds (h : list (list ascii * op)) (m : list (list ascii * entry)) : list (list ascii * entry) :=
  fold_left (fun m p => add m (fst p) (snd p)) h m.
End Registration.
Arguments EObj {O S} o.
Arguments EFun {O S} f.
Arguments EOver {O S} fs.
Arguments OpAdd {O S} o.
Arguments OpAddFun {O S} f.
Arguments OpEmplace {O S} o.

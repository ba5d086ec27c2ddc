(** * Scopes of python_base.h: [python_t::checkScope] and [ExtractClassNameAndSetScope] *)
From Verif Require Import Base SMap Desc_Model.

(** ** the Python objects *)
(** what an attribute holds: the class object of a scope, or something registered *)
Inductive pyval := PCls (o : nat) | PFn (f : nat).
(** attributes of class objects, the latest first; object 0 is the module *)
Definition attrs := list ((nat * list ascii) * pyval).
Fixpoint getattr (a : attrs) (o : nat) (n : list ascii) : option pyval :=
  match a with
  | [] => None
  | ((o', n'), v) :: a' => if (o =? o')%nat && beq n n' then Some v else getattr a' o n
  end.
Definition setattr (a : attrs) (o : nat) (n : list ascii) (v : pyval) : attrs := ((o, n), v) :: a.

(** an element of scopeStack, 496-506: its name, its class object, and the scope that was current when
    its [boost::python::scope] was made, which the destructor of that makes current again *)
Record scope := mkscope { s_name : list ascii; s_obj : nat; s_prev : nat }.
(** the stack, the outermost scope first; the current scope; the attributes; the number of class objects *)
Record pst := mkpst { stack : list scope; cur : nat; objs : attrs; next : nat }.
Definition start : pst := mkpst [] 0 [] 1.

(** [scopeStack.erase(scopeStack.begin()+level,scopeStack.end())]: libstdc++ destroys the elements from
    the first to the last, each making its [s_prev] current *)
Definition erase_from (level : nat) (s : pst) : pst :=
  mkpst (firstn level (stack s)) (fold_left (fun _ x => s_prev x) (skipn level (stack s)) (cur s)) (objs s) (next s).
(** [scopeStack.push_back(Scope(head))], 502-503: a class object in the current scope, made current *)
Definition push (head : list ascii) (s : pst) : pst :=
  mkpst (stack s ++ [mkscope head (next s) (cur s)]) (next s) (setattr (objs s) (cur s) head (PCls (next s))) (S (next s)).
(** one turn of the loop, 742-746 *)
Definition step (head : list ascii) (level : nat) (s : pst) : pst :=
  let s1 := match nth_error (stack s) level with
            | Some x => if beq head (s_name x) then s else erase_from level s
            | None => s
            end in
  if (level =? length (stack s1))%nat then push head s1 else s1.
(** 738-751; [acc]: the part of the current component already seen, reversed *)
Fixpoint check_loop (acc d : list ascii) (level : nat) (s : pst) : pst :=
  match d with
  | [] => erase_from level s
  | c :: d' => if ascii_dec c dot then check_loop [] d' (S level) (step (rev acc) level s) else check_loop (c :: acc) d' level s
  end.
Definition checkScope (d : list ascii) (s : pst) : pst := check_loop [] d 0 s.

(** [addFunctional], 804-811, without the classes of the arguments.  [boost::python::def] defines in the
    current scope; [staticmethod] throws if the class object has no such attribute ([None]).
    [tail], 730-736, is [Desc_Model.tail]. *)
Definition addFunctional (d : list ascii) (f : nat) (s : pst) : option pst :=
  let s1 := checkScope d s in
  let s2 := mkpst (stack s1) (cur s1) (setattr (objs s1) (cur s1) (tail d) (PFn f)) (next s1) in
  match rev (stack s1) with
  | [] => Some s2
  | x :: _ => match getattr (objs s2) (s_obj x) (tail d) with Some _ => Some s2 | None => None end
  end.
(** [addObject], 783-802: in the last scope of the stack, or in the current one if there is none *)
Definition addObject (d : list ascii) (f : nat) (s : pst) : pst :=
  let s1 := checkScope d s in
  let o := match rev (stack s1) with [] => cur s1 | x :: _ => s_obj x end in
  mkpst (stack s1) (cur s1) (setattr (objs s1) o (tail d) (PFn f)) (next s1).

(** ** [ExtractClassNameAndSetScope], 518-551 *)
(** 522 *)
Fixpoint strip_colons (s : list ascii) : list ascii :=
  match s with c :: s' => if ascii_dec c ":"%char then strip_colons s' else s | [] => [] end.
(** 523-548: [acc] is the text from [b] to [e] reversed, [ns] the modNames whose scopes were entered, in
    reverse order; the result is the class name and the modNames in order *)
Fixpoint extract_loop (acc : list ascii) (nAngle : Z) (modName : list ascii) (ns : list (list ascii)) (s : list ascii) : list ascii * list (list ascii) :=
  match s with
  | [] => (rev acc, rev ns)
  | c :: s' =>
      if ascii_dec c ":"%char then
        match s' with
        | c' :: s'' =>
            if (nAngle =? 0)%Z && (if ascii_dec c' ":"%char then true else false)
            then let m := match modName with [] => [] | _ => modName ++ [dot] end ++ rev acc in
                 extract_loop [] nAngle m (m :: ns) s''
            else extract_loop (c :: acc) nAngle modName ns s'
        | [] => extract_loop (c :: acc) nAngle modName ns s'
        end
      else if ascii_dec c "<"%char then extract_loop (c :: acc) (nAngle + 1) modName ns s'
      else if ascii_dec c ">"%char then extract_loop (c :: acc) (nAngle - 1) modName ns s'
      else extract_loop (c :: acc) nAngle modName ns s'
  end.
Definition extract (name : list ascii) : list ascii * list (list ascii) := extract_loop [] 0 [] [] (strip_colons name).
(** [namedScope]: the number of the class object of each modName, and the next number to give *)
Definition named := (list (list ascii * nat) * nat)%type.
(** 533-536 *)
Definition ensure (p : named) (m : list ascii) : named :=
  match mfind bcmp m (fst p) with
  | Some _ => p
  | None => (mset bcmp m (snd p) (fst p), S (snd p))
  end.
Definition set_scope (p : named) (name : list ascii) : named := fold_left ensure (snd (extract name)) p.
(** the object that is current when the constructor returns, if the name has a scope *)
Definition entered (p : named) (name : list ascii) : option nat :=
  match rev (snd (extract name)) with [] => None | m :: _ => mfind bcmp m (fst (set_scope p name)) end.

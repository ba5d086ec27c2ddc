(** * Model of the XML schema generator: xsd_generate_base.h *)
From Verif Require Import Base SMap Desc_Model.

Definition name := list ascii.
Definition nmem (x : name) (l : list name) : bool := existsb (beq x) l.
(** std::set<string>::insert *)
Fixpoint sins (x : name) (l : list name) : list name :=
  match l with
  | [] => [x]
  | y :: l' => match bcmp x y with Lt => x :: l | Eq => l | Gt => y :: sins x l' end
  end.

(** TypeBeingAddedTo 26-34 (derivedFromString is never used) *)
Record tba := mktba { complete : bool; seqAdded : bool; tname : name; descr : name; baseClass : name }.
(** the members of xsd_generate_t 23-24, 36, 53; [stk]: typeBeingAddedTo, its back first *)
Record xsd := mkxsd { defs : list (name * list ascii); deps : list (name * list name); stk : list tba; opt : bool }.
Definition xsd0 : xsd := mkxsd [] [] [] false.
Inductive xr := XOk (s : xsd) | XThrow | XUB.

(** xsdDefs[n], without the insertion of missing names *)
Definition defof (s : xsd) (n : name) : list ascii := match mfind bcmp n (defs s) with Some d => d | None => [] end.
Definition setdef (s : xsd) (n : name) (d : list ascii) : xsd := mkxsd (mset bcmp n d (defs s)) (deps s) (stk s) (opt s).
Definition settop (s : xsd) (t : tba) : xsd := mkxsd (defs s) (deps s) (match stk s with [] => [] | _ :: l => t :: l end) (opt s).

(** addDependency 125-130 *)
Definition tns : list ascii := bs "tns:".
Definition addDependency (s : xsd) (type dependency : name) : xsd :=
  if beq (firstn 4 dependency) tns
  then let old := match mfind bcmp type (deps s) with Some l => l | None => [] end in
       mkxsd (defs s) (mset bcmp type (sins (skipn 4 dependency) old) (deps s)) (stk s) (opt s)
  else s.

Definition quot : list ascii := ["034"%char].
Definition nl : list ascii := ["010"%char].
(** addMember 80-93 *)
Definition elem_line (n mt : name) (o : bool) : list ascii :=
  bs "      <xs:element name=" ++ quot ++ n ++ quot ++ bs " type=" ++ quot ++ mt ++
  (if o then quot ++ bs " minOccurs=" ++ quot ++ bs "0" else []) ++ quot ++ bs "/>" ++ nl.
Definition addMember (s : xsd) (n mt : name) : xsd :=
  match n, stk s with
  | _ :: _, t :: _ =>
      if complete t then s
      else
        let d := defof s (tname t) in
        let d1 := if seqAdded t then d else d ++ bs "    <xs:sequence>" ++ nl in
        let s1 := settop (setdef s (tname t) (d1 ++ elem_line n mt (opt s)))
                         (mktba false true (tname t) (descr t) (baseClass t)) in
        addDependency s1 (tname t) mt
  | _, _ => s
  end.

(** std::string::find of a character *)
Fixpoint cfind (c : ascii) (l : list ascii) : option nat :=
  match l with
  | [] => None
  | x :: l' => if Ascii.eqb x c then Some 0 else match cfind c l' with Some i => Some (S i) | None => None end
  end.
Definition gt : ascii := ">"%char.
(** addBase 96-122 *)
Definition mixed1 (d : list ascii) : list ascii :=
  match cfind gt d with
  | Some (S i) => firstn i d ++ bs " mixed=" ++ quot ++ bs "true" ++ quot ++ bs " " ++ skipn (S i) d
  | _ => d
  end.
Definition base_lines (b : name) : list ascii :=
  bs "      <xs:complexContent>" ++ nl ++ bs "      <xs:extension base=" ++ quot ++ b ++ quot ++ bs ">" ++ nl.
Definition addBase (s : xsd) (b : name) : xr :=
  match stk s with
  | t :: _ =>
      if complete t then XOk s
      else match baseClass t with
           | [] => let d := defof s (tname t) in
                   let d1 := if beq b (bs "xs::string") then mixed1 d else d in
                   XOk (settop (setdef s (tname t) (d1 ++ base_lines b))
                               (mktba false (seqAdded t) (tname t) (descr t) b))
           | b0 => if beq b0 b then XOk s else XThrow
           end
  | [] => XOk s
  end.
(** setTypeBeingAddedToIsDerivedFromString 66-77 *)
Definition setMixed (s : xsd) : xr :=
  match stk s with
  | [] => XUB
  | t :: _ =>
      if complete t then XOk s
      else match cfind gt (defof s (tname t)) with
           | None => XOk s
           | Some n => XOk (setdef s (tname t)
                       (bs "  <xs:complexType mixed=" ++ quot ++ bs "true" ++ quot ++ bs " name=" ++ quot ++ tname t ++ quot ++ bs ">" ++
                        skipn (S n) (defof s (tname t))))
           end
  end.
(** openType 135-143 *)
Definition openType (s : xsd) (type d : name) : xsd :=
  let c := match mfind bcmp type (defs s) with Some _ => true | None => false end in
  let s1 := mkxsd (defs s) (deps s) (mktba c false type d [] :: stk s) (opt s) in
  if c then s1 else setdef s1 type (bs "  <xs:complexType name=" ++ quot ++ type ++ quot ++ bs ">" ++ nl).
(** closeType 145-165 *)
Definition any_line : list ascii :=
  bs "      <xs:any minOccurs=" ++ quot ++ bs "0" ++ quot ++ bs " namespace=" ++ quot ++ bs "##other" ++ quot ++
  bs " maxOccurs=" ++ quot ++ bs "unbounded" ++ quot ++ bs " processContents=" ++ quot ++ bs "lax" ++ quot ++ bs "/>" ++ nl.
Definition close_text (t : tba) : list ascii :=
  (match baseClass t with [] => any_line | _ => [] end) ++
  (if seqAdded t then bs "    </xs:sequence>" ++ nl else []) ++
  (match baseClass t with [] => [] | _ => bs "      </xs:extension>" ++ nl ++ bs "      </xs:complexContent>" ++ nl end) ++
  bs "  </xs:complexType>" ++ nl.
Definition closeType (s : xsd) : xr :=
  match stk s with
  | [] => XUB                                         (* pop_back of an empty vector *)
  | t :: l =>
      let s1 := if complete t then s else setdef s (tname t) (defof s (tname t) ++ close_text t) in
      XOk (mkxsd (defs s1) (deps s1) l (opt s1))
  end.
(** defineType 176-180 *)
Definition defineType (s : xsd) (type def : list ascii) : xsd :=
  mkxsd (mins bcmp type def (defs s)) (deps s) (stk s) (opt s).

Inductive xop :=
| XOpen (type d : name) | XClose | XMember (n mt : name) | XBase (b : name) | XMixed
| XDefine (type def : list ascii) | XDep (type d : name) | XOpt (b : bool).
Definition xstep (s : xsd) (o : xop) : xr :=
  match o with
  | XOpen t d => XOk (openType s t d)
  | XClose => closeType s
  | XMember n mt => XOk (addMember s n mt)
  | XBase b => addBase s b
  | XMixed => setMixed s
  | XDefine t d => XOk (defineType s t d)
  | XDep t d => XOk (addDependency s t d)
  | XOpt b => XOk (mkxsd (defs s) (deps s) (stk s) b)
  end.
Fixpoint xrun (ops : list xop) (s : xsd) : xr :=
  match ops with [] => XOk s | o :: ops' => match xstep s o with XOk s' => xrun ops' s' | r => r end end.

(** the definitions given to defineType: arrays 316-350, enums 365-378, containers 381-404
    ([minmax]: the occurrence attributes) *)
Definition seq_def (type el elty lo hi : list ascii) : list ascii :=
  bs "  <xs:complexType name=" ++ quot ++ type ++ quot ++ bs ">" ++ nl ++
  bs "    <xs:sequence minOccurs=" ++ quot ++ lo ++ quot ++ bs " maxOccurs=" ++ quot ++ hi ++ quot ++ bs ">" ++ nl ++
  bs "      <xs:element name=" ++ quot ++ el ++ quot ++ bs " type=" ++ quot ++ elty ++ quot ++ bs "/>" ++ nl ++
  bs "    </xs:sequence>" ++ nl ++ bs "  </xs:complexType>" ++ nl.
Definition enum_def (type : name) (keys : list name) : list ascii :=
  bs "  <xs:simpleType name=" ++ quot ++ type ++ quot ++ bs ">" ++ nl ++
  bs "    <xs:restriction base=" ++ quot ++ bs "xs:string" ++ quot ++ bs ">" ++ nl ++
  concat (map (fun k => bs "      <xs:enumeration value=" ++ quot ++ k ++ quot ++ bs "/>" ++ nl) keys) ++
  bs "    </xs:restriction>" ++ nl ++ bs "  </xs:simpleType>" ++ nl.

(** ** Output: 39-47, 185-201 *)
(** [written] is a set, here a list; the result is the list of types in the order in which
    their definitions are written.  [None]: the recursion did not end within the fuel. *)
Section Output.
Variable dep : name -> list name.                 (* dependencies[type] *)
Fixpoint outputType (fuel : nat) (st : list name * list name) (type : name) {struct fuel} : option (list name * list name) :=
  match fuel with
  | O => None
  | S f =>
      if nmem type (fst st) then Some st
      else match (fix go (ds : list name) (st : list name * list name) : option (list name * list name) :=
                    match ds with
                    | [] => Some st
                    | d :: ds' => match outputType f st d with Some st' => go ds' st' | None => None end
                    end) (dep type) (type :: fst st, snd st) with
           | Some (w, o) => Some (w, o ++ [type])
           | None => None
           end
  end.
Fixpoint outputs (fuel : nat) (types : list name) (st : list name * list name) : option (list name * list name) :=
  match types with
  | [] => Some st
  | t :: types' => match outputType fuel st t with Some st' => outputs fuel types' st' | None => None end
  end.
End Output.
Definition depof (s : xsd) (t : name) : list name := match mfind bcmp t (deps s) with Some l => l | None => [] end.
(** the order of the definitions in the output, 194-196.  outputType inserts an empty
    definition for a type that has none; the loop over xsdDefs may then meet that entry, but
    it has been written already. *)
Definition universe (s : xsd) : list name := map fst (defs s) ++ concat (map snd (deps s)).
Definition output_order (fuel : nat) (s : xsd) : option (list name) :=
  match outputs (depof s) fuel (map fst (defs s)) ([], []) with Some (_, o) => Some o | None => None end.
(** the definitions written, and the state afterwards: xsdDefs[type] 46 *)
Definition output_body (s : xsd) (order : list name) : list ascii := concat (map (defof s) order).
Definition after_output (s : xsd) (order : list name) : xsd :=
  mkxsd (fold_left (fun m t => mins bcmp t [] m) order (defs s)) (deps s) (stk s) (opt s).

(** ** Generation for classes: 256-277, and shared_ptr 463-469 *)
Inductive mty := MFund (t : name) | MClass (c : name) | MPtr (c : name).
Section Gen.
Variable classes : name -> list (name * mty).     (* members of each class, in order *)
Definition currentDescription (s : xsd) : name := match stk s with t :: _ => descr t | [] => [] end.
Fixpoint gen (fuel : nat) (d c : name) (s : xsd) {struct fuel} : option xr :=
  match fuel with
  | O => None
  | S f =>
      let r1 := if beq (currentDescription s) d then addBase s (tns ++ c) else XOk (addMember s (tail d) (tns ++ c)) in
      match r1 with
      | XOk s1 =>
          let members :=
            (fix go (ms : list (name * mty)) (s : xsd) : option xr :=
               match ms with
               | [] => Some (XOk s)
               | (n, MFund t) :: ms' => go ms' (addMember s (tail (d ++ bs "." ++ n)) t)
               | (n, MClass c') :: ms' => match gen f (d ++ bs "." ++ n) c' s with
                                          | Some (XOk s') => go ms' s'
                                          | r => r
                                          end
               | (n, MPtr c') :: ms' =>
                   match gen f (d ++ bs "." ++ n) c' (mkxsd (defs s) (deps s) (stk s) true) with
                   | Some (XOk s') => go ms' (mkxsd (defs s') (deps s') (stk s') (opt s))
                   | r => r
                   end
               end) in
          match members (classes c) (openType s1 c d) with
          | Some (XOk s2) => Some (closeType s2)
          | r => r
          end
      | r => Some r
      end
  end.
End Gen.

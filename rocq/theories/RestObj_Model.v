(** * REST access to a tree of objects: RESTProcess_base.h, RESTProcess_epilogue.h,
    polyRESTProcess.h

    An object described by classdesc is registered under a name: every member gets an
    entry of its own, containers and pointers get one entry that deals with the rest of
    the query.  Types and values are those of Json_Model.v; the registry, its dispatch
    and the sequence commands are those of Rest_Model.v and Rest2_Model.v.

    Modelled types: fundamental types and strings, enums, sequences, [std::pair],
    classes with base classes, [std::shared_ptr].  A member whose name starts with
    "base_" stands for a base class, as in Json_Model.v.  C arrays, associative
    containers (see Rest2_Model.v), tuples, polymorphic pointers and member functions
    (see Rest_Model.v) are left out: they register nothing here.

    After an exception the object is shown as it was before the assignment, although
    [operator>>] may have assigned part of it. *)
From Verif Require Import Base SMap Dec Desc_Model Json_Model Rest_Model Rest2_Model.

(** What a command answers: [RESTProcessVoid], an object whose asBuffer() writes the
    value, the signatures for a type, or a null RPPtr. *)
Inductive out :=
| OVoid
| OVal (t : jty) (v : jval)
| OSig (t : jty)
| ONull.

(** [std::vector<std::string>] *)
Definition tnames : jty := TSeq None TStr.
Definition names (l : list (list ascii)) : out := OVal tnames (VL (map VS l)).
(** [size_t] *)
Definition tsize : jty := TInt ViaU64 false 64.

(** process(): the new value of the object and the answer *)
Definition action := jval -> list ascii -> jv -> jval * jr out.
(** A registered RESTProcessBase: whether it is a RESTProcessWrapperBase, the type of
    the object it refers to, where that is in the registered object, its process() and
    the names in its list(). *)
Record rent := mkrent { ewrap : bool; ety : jty; epath : list nat; eact : action; elist : jval -> list (list ascii) }.
Notation history := (list (list ascii * op rent unit)).
Definition unit_dec : forall a b : unit, {a = b} + {a <> b}.
Proof. decide equality. Defined.
Definition regs (h : history) : registry (entry rent unit) := adds rent unit unit_dec h [].
Definition wrapb (e : entry rent unit) : bool := match e with EObj o => ewrap o | _ => false end.

(** a sub-object: the i-th member of a class, or the first or second of a pair *)
Fixpoint getp (v : jval) (p : list nat) : option jval :=
  match p with
  | [] => Some v
  | i :: p' => match v with
               | VL l => match nth_error l i with Some x => getp x p' | None => None end
               | VP a b => match i with O => getp a p' | 1 => getp b p' | _ => None end
               | _ => None
               end
  end.
Fixpoint putp (v : jval) (p : list nat) (w : jval) : jval :=
  match p with
  | [] => w
  | i :: p' => match v with
               | VL l => match nth_error l i with Some x => VL (update l i (putp x p' w)) | None => v end
               | VP a b => match i with O => VP (putp a p' w) b | 1 => VP a (putp b p' w) | _ => v end
               | _ => v
               end
  end.

Section RestObj.
Variable klt : nat -> jval -> jval -> bool.
Variable narrow : N -> N.
Variable i2d : Z -> N.                              (* int64_t to double *)
Variable i2f : Z -> N.                              (* int64_t to float *)
Variable d2z : bool -> Z -> N -> option Z.          (* double to an integer type; None: out of range, undefined *)
Variable d2b : N -> bool.                           (* double to bool *)
Variable tname : jty -> list ascii.                 (* typeName<T>() *)
Variable ename : list (list ascii * Z) -> list ascii.  (* typeName of an enum *)
Notation unpack := (unpack klt narrow i2d).

(** ** convert, RESTProcess_base.h 154-337 *)
Definition done (old : jval) (r : jr jval) : jval * jr unit :=
  match r with JOk v => (v, JOk tt) | JErr e => (old, JErr e) | JUB => (old, JUB) end.
Definition char_of (z : Z) : ascii := ascii_of_N (Z.to_N (z mod 256)).
(** 154-159 and, for a class or number, 174-182.  [std::string] is assignable from a
    string. *)
Definition assign_str (t : jty) (v : jval) (s : list ascii) : jval * jr unit :=
  match t, s with
  | TStr, _ => (VS s, JOk tt)
  | TChar, [c] => (VC c, JOk tt)
  | _, _ => (v, JErr EOther)
  end.
(** 166-182 for an int64_t (or a bool, which converts in the same way).
    [std::string] is assignable from a char, hence from any number. *)
Definition assign_int (t : jty) (v : jval) (z : Z) : jval * jr unit :=
  match t with
  | TBool => (VB (negb (z =? 0)%Z), JOk tt)
  | TChar => (VC (char_of z), JOk tt)
  | TInt _ sgn bits => (VI (wrap sgn bits z), JOk tt)
  | TFlt => (VD (i2f z), JOk tt)
  | TDbl => (VD (i2d z), JOk tt)
  | TStr => (VS [char_of z], JOk tt)
  | _ => (v, JErr EOther)
  end.
Definition assign_real (t : jty) (v : jval) (d : N) : jval * jr unit :=
  let toint sgn bits f := match d2z sgn bits d with Some z => (f z, JOk tt) | None => (v, JUB) end in
  match t with
  | TBool => (VB (d2b d), JOk tt)
  | TChar => toint true 8%Z (fun z => VC (char_of z))
  | TInt _ sgn bits => toint sgn bits (fun z => VI z)
  | TFlt => (VD (narrow d), JOk tt)
  | TDbl => (VD d, JOk tt)
  | TStr => toint true 8%Z (fun z => VS [char_of z])
  | _ => (v, JErr EOther)
  end.
Fixpoint conv (t : jty) (v : jval) (j : jv) {struct t} : jval * jr unit :=
  match t with
  | TSeq _ _ =>                                                      (* 246-267 *)
      match j with JArr _ => done v (unpack false t j [] v) | _ => (v, JOk tt) end
  | TPtr t' =>                                                       (* 314-318 *)
      match v with
      | VPtr x => let '(x', r) := conv t' x j in (VPtr x', r)
      | _ => (v, JOk tt)
      end
  | TEnum ks =>                                                      (* 326-332 *)
      match unpack_leaf narrow i2d false TStr j [] (VS []) with
      | JOk (VS s) => (VI (ek_val (ek_make ks) s), JOk tt)
      | JOk _ | JUB => (v, JUB)
      | JErr e => (v, JErr e)
      end
  | _ =>                                                             (* 189-244 *)
      match j with
      | JObj _ => done v (unpack false t j [] v)
      | JArr [] => (v, JOk tt)
      | JArr (a :: _) => done v (unpack false t a [] v)
      | JStr s => assign_str t v s
      | JBool b => assign_int t v (if b then 1 else 0)%Z
      | JInt z => assign_int t v (wrap_via ViaI64 z)
      | JReal d => assign_real t v d
      | JNull => (v, JOk tt)
      end
  end.
(** the arguments of a command addressed to the object itself: 450-463 *)
Definition set_from (t : jty) (v : jval) (args : jv) : jval * jr unit :=
  match args with
  | JNull | JArr [] => (v, JOk tt)
  | JArr (a :: _) => conv t v a
  | _ => conv t v args
  end.

(** ** Commands *)
(** RESTProcess_t::process with the result of the dispatch, RESTProcess_epilogue.h 409-456 *)
Definition run (h : history) : action := fun v q args =>
  match process (entry rent unit) wrapb (regs h) q with
  | Some (ACall (EObj e) tl) =>
      match getp v (epath e) with
      | Some x => let '(x', r) := eact e x tl args in (putp v (epath e) x', r)
      | None => (v, JUB)
      end
  | Some (AList (EObj e)) =>
      match getp v (epath e) with
      | Some x => (v, JOk (names (filter (fun k => negb (beq k [])) (elist e x))))
      | None => (v, JUB)
      end
  | Some (AType (EObj e)) => (v, JOk (OVal TStr (VS (tname (ety e)))))
  | Some (ASignature (EObj e)) => (v, JOk (OSig (ety e)))
  | Some (AEnums l) => (v, JOk (names l))
  | Some ANotFound | Some AOutOfRange => (v, JErr EOther)
  | _ => (v, JUB)
  end.
(** mapAndProcess, RESTProcess_epilogue.h 506-519; [h] is what list() registers *)
Definition mapAndProcess (h : history) : action := fun v q args =>
  match q with
  | [] => match mfind bcmp [] (regs h) with
          | Some (EObj e) =>
              match getp v (epath e) with
              | Some x => let '(x', r) := eact e x [] args in (putp v (epath e) x', r)
              | None => (v, JUB)
              end
          | Some _ => (v, JUB)
          | None => (v, JOk ONull)
          end
  | _ => run h v q args
  end.

(** RESTProcessObject::process, RESTProcess_base.h 446-470 *)
Definition act_obj (t : jty) (inner : history) : action := fun v rem args =>
  match rem with
  | [] => let '(v', r) := set_from t v args in (v', _ <~ r ;; JOk (OVal t v'))
  | _ => mapAndProcess inner v rem args
  end.
(** RESTProcessEnum::process 1563-1584.  The remainder starts with a dot when it comes
    from the registry. *)
Definition act_enum (ks : list (list ascii * Z)) : action := fun v rem args =>
  let ek := ek_make ks in
  let answer v := match v with VI z => (v, JOk (OVal TStr (VS (ek_sym ek z)))) | _ => (v, JUB) end in
  if beq rem (bs "@type") then (v, JOk (OVal TStr (VS (tname (TEnum ks)))))
  else if beq rem (bs "@signature") then (v, JOk (OSig (TEnum ks)))
  else match args with
       | JStr s => answer (VI (ek_val ek s))
       | JArr (a :: _) =>
           match unpack_leaf narrow i2d false TStr a [] (VS []) with
           | JOk (VS s) => answer (VI (ek_val ek s))
           | JOk _ | JUB => (v, JUB)
           | JErr e => (v, JErr e)
           end
       | _ => answer v
       end.
(** EnumerateEnumerators::process, RESTProcess_epilogue.h 391-397 *)
Definition act_enumerators (ks : list (list ascii * Z)) : action := fun v _ _ =>
  (v, JOk (names (ek_syms (ek_make ks)))).
Definition d2u (d : N) : jr N := match d2z false 64%Z d with Some z => JOk (Z.to_N z) | None => JUB end.
(** RESTProcessSequence::process, RESTProcess_epilogue.h 272-291: seq_process of
    Rest2_Model.v, where a [std::array] neither has push_back nor erase
    (RESTProcess_base.h 637-641, 664-669).  RESTProcess_t(obj) of a container is empty
    (RESTProcess_epilogue.h 526-528), so that an unknown command is not found. *)
Definition act_seq (fx : option nat) (t' : jty) (mp : action) : action := fun v rem args =>
  match v with
  | VL l =>
      let convseq l j := match conv (TSeq fx t') (VL l) j with (VL l', r) => (l', r) | (_, r) => (l, r) end in
      let oproc l q (_ : jv) := if beq q (bs "@enum.@list") then (l, JOk (names [])) else (l, JErr EOther) in
      if (match fx with Some _ => true | None => false end)
         && negb (startsWith rem (bs ".@elem"))
         && (startsWith rem (bs ".@insert") || startsWith rem (bs ".@erase"))
      then (v, JErr EOther)
      else let '(l', r) := seq_process jval out (dflt t') (conv t') mp convseq oproc d2u l rem args in
           (VL l', o <~ r ;; JOk (match o with
                                  | SRef => OVal (TSeq fx t') (VL l')
                                  | SVoid => OVoid
                                  | SSize n => OVal tsize (VI (Z.of_N n))
                                  | SElem _ x | SObj x => x
                                  end))
  | _ => (v, JUB)
  end.
(** RESTProcessPtr::process, RESTProcess_epilogue.h 382-389 with rProcess,
    polyRESTProcess.h 49-54: [RESTProcessObject<T>( *ptr).process] *)
Definition act_ptr (t' : jty) (mp : action) : action := fun v rem args =>
  match v with
  | VPtr x =>
      match rem with
      | [] => let '(x', r) := set_from t' x args in (VPtr x', _ <~ r ;; JOk (OVal t' x'))
      | _ => let '(x', r) := mp x rem args in (VPtr x', r)
      end
  | VNul => (v, JOk OVoid)
  | _ => (v, JUB)
  end.

(** ** Registration *)
(** the keys of a registry *)
Definition keys (h : history) : list (list ascii) := map fst (regs h).
(** RESTProcessSequence::list, RESTProcess_epilogue.h 123-132 *)
Definition seq_names : list (list ascii) :=
  [bs ".@elem"; bs ".@elemNoThrow"; bs ".@erase"; bs ".@insert"; bs ".@size"].
(** RESTProcessObject<T> added after the members [inner] of the object.  The registry
    built for a query that the members do not answer (mapAndProcess, 469) has the object
    itself under the empty name; nothing is ever handed to that entry. *)
Definition root_act (t : jty) (inner : history) : action :=
  act_obj t (inner ++ [([], OpAdd (mkrent false t [] (fun v _ _ => (v, JUB)) (fun _ => keys inner)))]).
Definition root (t : jty) (pre : list nat) (inner : history) : rent :=
  mkrent false t pre (root_act t inner) (fun _ => keys inner).
(** a base class: RESTProcess_onbase, RESTProcess_base.h 1641-1642, registers it under
    the name of the object *)
Definition isbase (n : list ascii) : bool := prefixb (bs "base_") n.
Definition mname (d n : list ascii) : list ascii := if isbase n then d else d ++ dot :: n.

Fixpoint reg (t : jty) (pre : list nat) (d : list ascii) {struct t} : history :=
  match t with
  | TBool | TChar | TInt _ _ _ | TFlt | TDbl | TStr =>               (* 582-585 *)
      [(d, OpEmplace (root t pre []))]
  | TEnum ks =>                                                      (* 1632-1638, 1599-1601 *)
      [(d, OpAdd (mkrent false t pre (act_enum ks) (fun _ => [])));
       (bs "@enum." ++ ename ks, OpAdd (mkrent false t [] (act_enumerators ks) (fun _ => [])))]
  | TSeq fx t' =>                                                    (* 821-824 *)
      [(d, OpAdd (mkrent true t pre (act_seq fx t' (mapAndProcess (reg t' [] []))) (fun _ => seq_names)))]
  | TPtr t' =>                                                       (* 1672-1675 *)
      [(d, OpAdd (mkrent true t pre (act_ptr t' (mapAndProcess (reg t' [] [])))
                    (fun v => match v with VPtr _ => keys (reg t' [] []) | _ => [] end)))]
  | TPair a b =>                                                     (* epilogue 31-40, 179-185 *)
      reg a (pre ++ [0]) (d ++ bs ".first") ++ reg b (pre ++ [1]) (d ++ bs ".second") ++
      [(d, OpAdd (root t pre (reg a [0] (bs ".first") ++ reg b [1] (bs ".second"))))]
  | TStruct fs =>                                                    (* epilogue 179-185 *)
      reg_flds fs 0 pre d ++ [(d, OpAdd (root t pre (reg_flds fs 0 [] [])))]
  | _ => []
  end
with reg_flds (fs : flds) (i : nat) (pre : list nat) (d : list ascii) {struct fs} : history :=
  match fs with
  | FNil => []
  | FCons n t fs' => reg t (pre ++ [i]) (mname d n) ++ reg_flds fs' (S i) pre d
  end.

(** An object [v] of type [t] registered under the name [d], and a query. *)
Definition rest (d : list ascii) (t : jty) : action := run (reg t [] d).
End RestObj.

(** * REST access to containers and functions: RESTProcess_base.h, RESTProcess_epilogue.h,
    function.h

    The element type and what [mapAndProcess], [convert] and [operator>>] do with it are
    parameters; a command returns the new value of the container and a result. *)
From Verif Require Import Base SMap Dec Desc_Model Json_Model Rest_Model.

(** RESTProcess_base.h 599-600 *)
Definition startsWith (x prefix : list ascii) : bool := beq (firstn (length prefix) x) prefix.

(** [std::stoi(s)]: blanks, a sign, decimal digits; [std::invalid_argument] without a
    digit, [std::out_of_range] outside [int].  Anything may follow the digits. *)
Fixpoint skipspace (s : list ascii) : list ascii :=
  match s with c :: s' => if isspace c then skipspace s' else s | [] => [] end.
Definition stoi (s : list ascii) : jr Z :=
  let s := skipspace s in
  let '(neg, s) := match s with
                   | c :: s' => if ascii_dec c "-" then (true, s')
                                else if ascii_dec c "+" then (false, s') else (false, s)
                   | [] => (false, s)
                   end in
  match digits 10 s 0 false with
  | (_, false) => JErr EOther
  | (v, true) => let z := if neg : bool then (- Z.of_N v)%Z else Z.of_N v in
                 if ((- 2 ^ 31 <=? z) && (z <? 2 ^ 31))%Z then JOk z else JErr EOther
  end.
(** conversion to [size_t] *)
Definition to_size (z : Z) : N := Z.to_N (z mod 2 ^ 64).
(** [s.find('.', from)] *)
Definition find_from (s : list ascii) (from : nat) : option nat :=
  match sfind dot (skipn from s) with Some p => Some (from + p) | None => None end.

(** ** Sequences *)
Section Seq.
Variables E R : Type.
Variable dflt : E.                                        (* value_type v{} *)
Variable conv : E -> jv -> E * jr unit.                   (* convert(E&, j) *)
Variable eproc : E -> list ascii -> jv -> E * jr R.       (* mapAndProcess(query,args,element) *)
Variable convseq : list E -> jv -> list E * jr unit.      (* convert(sequence, j) *)
Variable oproc : list E -> list ascii -> jv -> list E * jr R.  (* RESTProcess_t(obj).process *)
Variable d2u : N -> jr N.                                 (* double to size_t; UB out of range *)

Inductive sout :=
| SRef                       (* a reference to the sequence itself *)
| SVoid
| SSize (n : N)
| SElem (i : N) (r : R)      (* what the element answered *)
| SObj (r : R).

(** convert(size_t& idx, j) with idx=0 before, RESTProcess_base.h 200-240 *)
Definition conv_idx (j : jv) : jr N :=
  match j with
  | JNull => JOk 0%N
  | JInt z => JOk (to_size z)
  | JBool b => JOk (if b then 1 else 0)%N
  | JReal d => d2u d
  | JStr _ => JErr EOther              (* "... cannot be converted to ..." *)
  | JObj _ => JErr EJson               (* j>>x of an object into a number *)
  | JArr [] => JOk 0%N
  | JArr (JInt z :: _) => JOk (to_size z)
  | JArr (_ :: _) => JErr EJson
  end.

Fixpoint update (l : list E) (i : nat) (e : E) : list E :=
  match l, i with
  | [], _ => []
  | _ :: l', O => e :: l'
  | x :: l', S i' => x :: update l' i' e
  end.
Fixpoint remove_nth (l : list E) (i : nat) : list E :=
  match l, i with
  | [], _ => []
  | _ :: l', O => l'
  | x :: l', S i' => x :: remove_nth l' i'
  end.

(** elemImpl, RESTProcess_epilogue.h 249-270: [Some (i, idxEnd)], or [None] for end() *)
Definition elemImpl (obj : list E) (rem : list ascii) : jr (option (N * nat)) :=
  match find_from rem 1 with
  | None => JErr EOther                               (* "no index" *)
  | Some idxStart =>
      let idxEnd := match find_from rem (S idxStart) with Some e => e | None => length rem end in
      z <~ stoi (firstn idxEnd (skipn (S idxStart) rem)) ;;
      let idx := to_size z in
      if (len obj <=? idx)%N then
        if startsWith rem (bs ".@elemNoThrow") then JOk None else JErr EOther
      else JOk (Some (idx, idxEnd))
  end.

(** RESTProcessSequence::insert 628-635 *)
Definition seq_insert (obj : list E) (args : jv) : list E * jr sout :=
  match conv dflt args with
  | (v, JOk _) => (obj ++ [v], JOk SRef)
  | (_, JErr e) => (obj, JErr e)
  | (_, JUB) => (obj, JUB)
  end.
(** RESTProcessSequence::erase 651-662 *)
Definition seq_erase (obj : list E) (args : jv) : list E * jr sout :=
  match conv_idx args with
  | JOk idx => (if (idx <? len obj)%N then remove_nth obj (N.to_nat idx) else obj, JOk SRef)
  | JErr e => (obj, JErr e)
  | JUB => (obj, JUB)
  end.
(** sequenceProcess, RESTProcess_epilogue.h 213-236 *)
Definition sequenceProcess (obj : list E) (rem : list ascii) (args : jv) : list E * jr sout :=
  match rem with
  | [] =>
      match args with
      | JNull | JArr [] => (obj, JOk SRef)
      | _ => let j := match args with JArr (a :: _) => a | _ => args end in
             let '(o, r) := convseq obj j in
             (o, _ <~ r ;; JOk SRef)
      end
  | _ => if startsWith rem (bs ".@size") then (obj, JOk (SSize (len obj)))
         else let '(o, r) := oproc obj rem args in (o, x <~ r ;; JOk (SObj x))
  end.
(** RESTProcessSequence::process, RESTProcess_epilogue.h 272-291 *)
Definition seq_process (obj : list E) (rem : list ascii) (args : jv) : list E * jr sout :=
  if startsWith rem (bs ".@elem") then
    match elemImpl obj rem with
    | JErr e => (obj, JErr e)
    | JUB => (obj, JUB)
    | JOk None => (obj, JOk SVoid)
    | JOk (Some (i, idxEnd)) =>
        match nth_error obj (N.to_nat i) with
        | None => (obj, JUB)
        | Some x => let '(x', r) := eproc x (skipn idxEnd rem) args in
                    (update obj (N.to_nat i) x', y <~ r ;; JOk (SElem i y))
        end
    end
  else if startsWith rem (bs ".@insert") then seq_insert obj args
  else if startsWith rem (bs ".@erase") then seq_erase obj args
  else sequenceProcess obj rem args.
End Seq.
Arguments SRef {R}.
Arguments SVoid {R}.
Arguments SSize {R} n.
Arguments SElem {R} i r.
Arguments SObj {R} r.
Arguments update {E} l i e.
Arguments remove_nth {E} l i.

(** ** Associative containers *)
Section Assoc.
Variables K V R : Type.
Variable cmp : K -> K -> comparison.
Notation assoc := (list (K * V)).
(** [std::map::erase(k)] *)
Definition mdel (k : K) (m : assoc) : assoc :=
  filter (fun p => match cmp k (fst p) with Eq => false | _ => true end) m.

Variable rawkey : list ascii -> jr K.           (* assignRawStringToKey 884-903 *)
Variable jsonkey : list ascii -> jr (K * list ascii).  (* read_range and >>: the key and what is left *)
Variable assign : assoc -> K -> jv -> assoc * jr unit.  (* assignElem 906-930 *)
Variable convm : assoc -> jv -> assoc * jr unit.        (* convert(container, j) *)
Variable convpair : jv -> jr (K * V).                   (* convert(value_type&, j) *)
Variable convkey : jv -> jr K.                          (* convert(key_type&, j) *)
Variable vproc : V -> list ascii -> jv -> V * jr R.     (* mapAndProcess on a mapped value *)
Variable dummy : list ascii -> jv -> jr R.              (* mapAndProcessDummy<value_type> *)
Variable oproc : assoc -> list ascii -> jv -> assoc * jr R.

Inductive aout :=
| ARef                          (* the container itself *)
| AVal (v : V)                  (* a copy of the element *)
| ASub (r : R)                  (* what the element answered *)
| ADummy (r : R)
| ASize (n : N)
| AKeys (ks : list K)
| AObj (r : R).

Definition jsonlead (c : ascii) : bool :=
  existsb (fun d => if ascii_dec c d then true else false) [""""%char; "'"%char; "{"%char; "["%char].

(** the key of ".@elem…": 329-346; [keyStart] is the position after the dot *)
Definition parse_key (rem : list ascii) (keyStart : nat) : jr (K * list ascii) :=
  match skipn keyStart rem with
  | [] => JUB                                (* *keyStart reads the end iterator *)
  | c :: s =>
      if jsonlead c || beq [c] [zero] then jsonkey (c :: s)   (* strchr also finds the terminator *)
      else let n := match sfind dot (c :: s) with Some p => p | None => length (c :: s) end in
           k <~ rawkey (firstn n (c :: s)) ;;
           JOk (k, skipn n (c :: s))
  end.

(** RESTProcessAssociativeContainer::process, RESTProcess_epilogue.h 308-379 *)
Definition assoc_elem (obj : assoc) (rem : list ascii) (args : jv) : assoc * jr aout :=
  match find_from rem 1 with
  | None => (obj, JOk ARef)
  | Some p =>
      match parse_key rem (S p) with
      | JErr e => (obj, JErr e)
      | JUB => (obj, JUB)
      | JOk (key, tail) =>
          let '(obj', r) :=
            match tail, args with
            | [], JNull => (obj, JOk tt)
            | [], _ => assign obj key args
            | _, _ => (obj, JOk tt)
            end in
          match r with
          | JErr e => (obj', JErr e)
          | JUB => (obj', JUB)
          | JOk _ =>
              match mfind cmp key obj' with
              | None => if startsWith rem (bs ".@elemNoThrow")
                        then (obj', x <~ dummy tail args ;; JOk (ADummy x))
                        else (obj', JErr EOther)
              | Some v => match tail with
                          | [] => (obj', JOk (AVal v))
                          | _ => (* auto eoi=elem_of(i): a copy, 359 *)
                                 let '(_, r) := vproc v tail args in (obj', x <~ r ;; JOk (ASub x))
                          end
              end
          end
      end
  end.
(** RPAC_insert 845-852 *)
Definition assoc_insert (obj : assoc) (args : jv) : assoc * jr aout :=
  match convpair args with
  | JOk (k, v) => match mfind cmp k obj with
                  | None => (mset cmp k v obj, JOk ARef)
                  | Some _ => (obj, JErr EOther)
                  end
  | JErr e => (obj, JErr e)
  | JUB => (obj, JUB)
  end.
(** RPAC_erase 861-867 *)
Definition assoc_erase (obj : assoc) (args : jv) : assoc * jr aout :=
  match convkey args with
  | JOk k => (mdel k obj, JOk ARef)
  | JErr e => (obj, JErr e)
  | JUB => (obj, JUB)
  end.
Definition assoc_process (obj : assoc) (rem : list ascii) (args : jv) : assoc * jr aout :=
  match rem with
  | [] => match args with
          | JNull | JArr [] => (obj, JOk ARef)
          | _ => let j := match args with JArr (a :: _) => a | _ => args end in
                 let '(o, r) := convm obj j in (o, _ <~ r ;; JOk ARef)
          end
  | _ =>
      if startsWith rem (bs ".@elem") then assoc_elem obj rem args
      else if startsWith rem (bs ".@insert") then assoc_insert obj args
      else if startsWith rem (bs ".@erase") then assoc_erase obj args
      else if startsWith rem (bs ".@size") then (obj, JOk (ASize (len obj)))
      else if startsWith rem (bs ".@keys") then (obj, JOk (AKeys (map fst obj)))
      else let '(o, r) := oproc obj rem args in (o, x <~ r ;; JOk (AObj x))
  end.

(** assignElem for maps 906-915: emplace a default value, then convert *)
Variable vdflt : V.
Variable convv : V -> jv -> V * jr unit.
Definition assign_map (obj : assoc) (k : K) (x : jv) : assoc * jr unit :=
  let v0 := match mfind cmp k obj with Some v => v | None => vdflt end in
  let '(v, r) := convv v0 x in (mset cmp k v obj, r).

(** getElem 999-1002 on a container that is not const: [elem] emplaces *)
Definition getElem (obj : assoc) (k : K) : assoc * V :=
  match mfind cmp k obj with
  | Some v => (obj, v)
  | None => (mset cmp k vdflt obj, vdflt)
  end.
End Assoc.
Arguments ARef {K V R}.
Arguments AVal {K V R} v.
Arguments ASub {K V R} r.
Arguments ADummy {K V R} r.
Arguments ASize {K V R} n.
Arguments AKeys {K V R} ks.
Arguments AObj {K V R} r.
(** assignElem for sets 917-930: [x>>v] of a JSON boolean *)
Definition assign_set {K : Type} (cmp : K -> K -> comparison) (obj : list (K * unit)) (k : K) (x : jv)
  : list (K * unit) * jr unit :=
  match x with
  | JBool true => (mset cmp k tt obj, JOk tt)
  | JBool false => (mdel K unit cmp k obj, JOk tt)
  | _ => (obj, JErr EJson)
  end.

(** ** Calling a function, RESTProcess_base.h 1126-1227, function.h 497-614 *)
Section Call.
Variables T V R : Type.                    (* parameter types, argument values, results *)
Variable dfltv : T -> V.                   (* A a{} *)
Variable rd : T -> jv -> jr V.             (* REST_PROCESS_BUFFER >> a, with a=A{} before *)

(** JSONBuffer 1126-1143 *)
Definition jbuffer (j : jv) : list jv :=
  match j with JArr l => l | JNull => [] | _ => [j] end.
(** [b>>a] 1144-1148 and function.h eval 559-566 *)
Definition next (t : T) (b : list jv) : jr (V * list jv) :=
  match b with
  | [] => JOk (dfltv t, [])
  | j :: b' => v <~ rd t j ;; JOk (v, b')
  end.
(** CallOnBuffer 586-614: read the first argument, call the rest with CurryFirst<F>(f,a),
    whose operator() puts [a] in front of its arguments (497-554) *)
Fixpoint callOnBuffer {X : Type} (ts : list T) (b : list jv) (f : list V -> X) : jr X :=
  match ts with
  | [] => JOk (f [])
  | t :: ts' => p <~ next t b ;;
                callOnBuffer ts' (snd p) (fun args => f (fst p :: args))
  end.

Inductive rkind := KRef | KVal | KVoid.    (* reference, value or void result *)
(** what happens after the call has returned *)
Inductive after :=
| AfterNothing                              (* the result is returned (Void for void) *)
| AfterConvert (j : jv)                     (* convert(r, j): assign to the result *)
| AfterProcess (rem : list ascii) (j : jv). (* map.process(remainder, j) on the result *)
(** callFunction 1157-1221 *)
Definition callFunction (k : rkind) (ts : list T) (rem : list ascii) (args : jv) : jr (list V * after) :=
  vs <~ callOnBuffer ts (jbuffer args) (fun vs => vs) ;;
  JOk (vs, match k, rem with
           | KVoid, _ => AfterNothing
           | KVal, [] => AfterNothing
           | KRef, [] =>
               match args with
               | JNull => AfterNothing
               | JArr l => match nth_error l (length ts) with
                           | Some j => AfterConvert j
                           | None => AfterNothing
                           end
               | _ => match ts with [] => AfterConvert args | _ => AfterNothing end
               end
           | _, _ => AfterProcess rem args
           end).
End Call.
Arguments callOnBuffer {T V} dfltv rd {X} ts b f.
Arguments callFunction {T V} dfltv rd k ts rem args.

(** ** functional::apply, function.h 399-483 *)
Section Apply.
Variables V R : Type.
Variable junk : V.                          (* a[i] beyond the end (never used below) *)
(** CurryLastNonVoid/CurryLastVoid::operator(): append a[Arity-1] *)
Definition curryLast (n : nat) (f : list V -> R) (a : list V) : list V -> R :=
  fun args => f (args ++ [nth (n - 1) a junk]).
(** apply() recurses until the arity is 0 *)
Fixpoint applyf (n : nat) (f : list V -> R) (a : list V) : R :=
  match n with
  | O => f []
  | S n' => applyf n' (curryLast (S n') f a) a
  end.
End Apply.

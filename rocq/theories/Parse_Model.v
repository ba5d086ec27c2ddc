(** * Token-level helpers of the descriptor generator: gobble_delimited,
      get_template_args, replaceShornTypes, extract_targs and the namespace
      bookkeeping of main *)
From Verif Require Import Base SMap Desc_Model Tok_Model.

(** tokens; the stream of tokens delivered by tokeninput::nexttok (Tok_Model.lex_file) *)
Notation tok := (list ascii) (only parsing).
Definition teq (t : tok) (s : string) : bool := beq t (bs s).
Definition first (t : tok) : ascii := hd zero t.        (* token[0]; the terminating zero when empty *)

(** tokeninput.h:69  token, lasttoken, tokenBeforeLast, and the tokens still to come.  The file
    position is represented by the tokens to come: each nexttok consumes at least one character. *)
Record inp := Inp { tk2 : tok; tk1 : tok; tk : tok; more : list tok }.

Inductive pres (A : Type) :=
| POk (a : A) (i : inp)
| PEof                       (* tokeninput::eof thrown *)
| PFuel.                     (* the fuel of the model ran out; shown not to happen *)
Arguments POk {A}. Arguments PEof {A}. Arguments PFuel {A}.
Definition pbind {A B : Type} (r : pres A) (k : A -> inp -> pres B) : pres B :=
  match r with POk a i => k a i | PEof => PEof | PFuel => PFuel end.

(** tokeninput.h:81-89 nexttok, on the token level *)
Definition next (i : inp) : pres unit :=
  match more i with
  | [] => PEof
  | t :: m => POk tt (Inp (tk1 i) (tk i) t m)
  end.

(** tokeninput.h:275-295 gobble_delimited: the loop; the recursion is on the tokens to come *)
Fixpoint gob (l r : tok) (ts : list tok) (t1 t : tok) (cnt : Z) (acc : list ascii) : pres (list ascii) :=
  match ts with
  | [] => PEof
  | u :: m =>
      if (beq u r && (cnt <=? 0)%Z)%bool then POk acc (Inp t1 t u m)
      else
        let acc := acc ++ u ++ [" "%char] in
        let cnt := if beq u l then (cnt + 1)%Z else cnt in
        let cnt := if beq u r then (cnt - 1)%Z else cnt in
        if (teq u ">>" && teq l "<")%bool then
          let cnt := (cnt - 2)%Z in
          if (cnt <=? 0)%Z then POk acc (Inp t1 t u m) else gob l r m t u cnt acc
        else gob l r m t u cnt acc
  end.
Definition gobble (l r : string) (i : inp) : pres (list ascii) :=
  let acc := tk1 i ++ [" "%char] ++ tk i ++ [" "%char] in
  if beq (tk i) (bs l ++ bs r) then POk acc i
  else gob (bs l) (bs r) (more i) (tk1 i) (tk i) 0%Z acc.

Definition pbound (i : inp) : nat := S (length (more i)).
(** tokeninput.h:305-310 skipping a default argument *)
Fixpoint skipdef (fuel : nat) (i : inp) : pres unit :=
  match fuel with
  | O => PFuel
  | S f =>
      if strchr ">," (first (tk i)) then POk tt i
      else
        pbind (if ceq (first (tk i)) "<" then pbind (gobble "<" ">" i) (fun _ i => POk tt i) else POk tt i)
          (fun _ i => pbind (next i) (fun _ i => skipdef f i))
  end.
(** tokeninput.h:298-320 get_template_args; angle_count is unbounded here (size_t in the code) *)
Fixpoint gta (fuel : nat) (ac : Z) (targs : list ascii) (i : inp) : pres (list ascii) :=
  match fuel with
  | O => PFuel
  | S f =>
      pbind (if ceq (first (tk i)) "=" then skipdef (pbound i) i else POk tt i) (fun _ i =>
        let t := tk i in
        let targs := targs ++ t ++ (if teq t "." then [] else [" "%char]) in
        let ac := if ceq (first t) "<" then (ac + Z.of_nat (length t))%Z
                  else if ceq (first t) ">" then (ac - Z.of_nat (length t))%Z else ac in
        pbind (next i) (fun _ i =>
          if (ac =? 0)%Z then POk targs i else gta f ac targs i))
  end.
Definition get_template_args (i : inp) : pres (list ascii) := gta (pbound i) 0%Z [] i.

(** std::string::find(s, i) *)
Fixpoint find_at (s input : list ascii) (i : nat) : option nat :=
  if starts s input then Some i
  else match input with [] => None | _ :: l => find_at s l (S i) end.
Definition find_from (s input : list ascii) (i : nat) : option nat :=
  if (i <=? length input)%nat then find_at s (skipn i input) i else None.
Fixpoint skipws (l : list ascii) : list ascii :=
  match l with [] => [] | c :: l' => if isspace c then skipws l' else l end.
(** classdesc.cc:296-315 replaceShornTypes; [i] and [j] are string positions, None is npos.
    [None] in the result: the fuel ran out *)
Fixpoint shorn (fuel : nat) (input s full : list ascii) (i : nat) (j : option nat) (r : list ascii) : option (list ascii) :=
  match fuel with
  | O => None
  | S f =>
      match j with
      | None => Some (r ++ skipn i input)                    (* substr(i,npos); then i=j=npos ends the loop *)
      | Some j =>
          let r := r ++ firstn j (skipn i input) in          (* substr(i,j): j is taken as a length *)
          let j := (j + length s)%nat in
          let r := r ++ match skipws (skipn j input) with
                        | c :: _ => if ceq c "<" then s else full
                        | [] => full
                        end in
          shorn f input s full j (find_from s input j) r
      end
  end.
Definition replaceShornTypes (input s full : list ascii) : option (list ascii) :=
  shorn (S (S (length input))) input s full 0 (find_from s input 0) [].

(** classdesc.cc:948-994 extract_targs, on the characters after the first one.
    [None]: reads past the terminating zero, or the fuel ran out.
    [el]: whether the ellipsis is handled (classdesc.cc) or not (insert-friend.cc:30-64) *)
Fixpoint skipangle (l : list ascii) (n : nat) : option (list ascii) :=       (* targsptr at the '<' ... at the matching '>' *)
  match l with
  | [] => None
  | c :: l' =>
      if ceq c "<" then skipangle l' (S n)
      else if ceq c ">" then match n with O => Some l' | S n' => skipangle l' n' end
      else skipangle l' n
  end.
Fixpoint skipeq (l : list ascii) (n : Z) : option (ascii * list ascii) :=
  match l with
  | [] => if (n =? 0)%Z then Some (zero, []) else None         (* strchr finds the terminating zero *)
  | c :: l' =>
      if (strchr ">," c && (n =? 0)%Z)%bool then Some (c, l')
      else skipeq l' (if ceq c "<" then n + 1 else if ceq c ">" then n - 1 else n)%Z
  end.
Fixpoint ext (fuel : nat) (l : list ascii) (r t el : list ascii) : option (list ascii) :=
  match fuel with
  | O => None
  | S f =>
      match l with
      | [] => Some r
      | c :: l' =>
          if isident c then ext f l' r (t ++ [c]) el
          else
            match skipws l with
            | [] => Some r
            | c :: l' =>
                if ceq c "<" then match skipangle l' 0 with Some l'' => ext f l'' r [] el | None => None end
                else if ceq c "=" then
                  match skipeq (c :: l') 0 with
                  | Some (d, l'') =>
                      if ceq d zero then None                  (* then the pointer moves past the end *)
                      else ext f l'' (r ++ t ++ el ++ [d]) [] []
                  | None => None
                  end
                else if mem c ">," then ext f l' (r ++ t ++ el ++ [c]) [] []
                else if isident c then ext f (c :: l') r [] el
                else if ceq c "." then ext f l' r [] (el ++ [c])
                else ext f l' r [] el
            end
      end
  end.
Definition extract_targs (targs : list ascii) : option (list ascii) :=
  match targs with
  | [] => Some []
  | _ :: l => ext (S (length l + length l)) l [("<"%char : ascii)] [] []
  end.

(** ** The namespace bookkeeping of main *)
(** std::string::rfind("::"): scan for the last position *)
Fixpoint rfind2 (l : list ascii) : option nat :=
  match l with
  | [] => None
  | c :: l' =>
      match rfind2 l' with
      | Some n => Some (S n)
      | None => if starts (bs "::") l then Some 0 else None
      end
  end.
(** classdesc.cc:1278-1291 leaving a namespace; string::erase(npos) throws out_of_range: [None] *)
Definition pop_name (ns : list ascii) : option (list ascii) :=
  match rfind2 ns with
  | None => None
  | Some p =>
      let ns := firstn p ns in
      Some (firstn (match rfind2 ns with None => 0 | Some p => p + 2 end) ns)
  end.

Fixpoint skip_to (t : string) (fuel : nat) (i : inp) : pres unit :=
  match fuel with
  | O => PFuel
  | S f => if teq (tk i) t then POk tt i else pbind (next i) (fun _ i => skip_to t f i)
  end.

Inductive mend := MEof | MThrow | MFuel.
Section Main.
  (** classdesc.cc:1315-1350 the handling of typedef, template, class, struct and enum: given the
      namespace prefix and the stream, how many further tokens it reads (None: it meets the end) *)
  Variable eat : list ascii -> inp -> option nat.
  Fixpoint nexts (n : nat) (i : inp) : pres unit :=
    match n with O => POk tt i | S n => pbind (next i) (fun _ i => nexts n i) end.
  Definition keyword (t : tok) : bool :=
    (teq t "typedef" || teq t "template" || teq t "class" || teq t "struct" || teq t "enum")%bool.

  (** classdesc.cc:1292-1312 [marks]: namespace_end, as the number of tokens to come *)
  Definition enter (ns : list ascii) (marks : list nat) (i : inp) : pres (list ascii * list nat) :=
    if teq (tk i) "namespace" then
      pbind (next i) (fun _ i =>
        if teq (tk i) "{" then POk (ns, marks) i
        else
          let name := tk i in
          pbind (next i) (fun _ i =>
            if teq (tk i) "=" then pbind (skip_to ";" (pbound i) i) (fun _ i => POk (ns, marks) i)
            else if teq (tk i) "{" then
              pbind (gobble "{" "}" i) (fun _ j =>
                POk (ns ++ name ++ bs "::", length (more j) :: marks) i)
            else POk (ns, marks) i))
    else POk (ns, marks) i.
  (** classdesc.cc:1315-1353 everything after the namespace support *)
  Definition rest_of_loop (ns : list ascii) (i : inp) : pres unit :=
    pbind (if keyword (tk i) then match eat ns i with Some n => nexts n i | None => PEof end else POk tt i)
      (fun _ i => if teq (tk i) "(" then pbind (gobble "(" ")" i) (fun _ i => POk tt i) else POk tt i).

  (** classdesc.cc:1258-1355 the loop.  The trace lists, for each turn, the token and the
      namespace prefix after the namespace end test (that is, the prefix in force for it) *)
  Fixpoint main_loop (fuel : nat) (ns : list ascii) (marks : list nat) (i : inp) : list (tok * list ascii) * mend :=
    match fuel with
    | O => ([], MFuel)
    | S f =>
        match next i with
        | POk _ i =>
            if starts (bs "#pragma") (tk i) then main_loop f ns marks i
            else
              match (if teq (tk i) "using" then skip_to ";" (pbound i) i else POk tt i) with
              | POk _ i =>
                  let popped := match marks with
                                | m :: ms => if (length (more i) <? m)%nat
                                             then match pop_name ns with Some ns => Some (ns, ms) | None => None end
                                             else Some (ns, marks)
                                | [] => Some (ns, marks)
                                end in
                  match popped with
                  | None => ([], MThrow)
                  | Some (ns, marks) =>
                      let e := (tk i, ns) in
                      match pbind (enter ns marks i) (fun nm i => pbind (rest_of_loop (fst nm) i) (fun _ i => POk nm i)) with
                      | POk (ns, marks) i => let (tr, x) := main_loop f ns marks i in (e :: tr, x)
                      | PEof => ([e], MEof)
                      | PFuel => ([e], MFuel)
                      end
                  end
              | PEof => ([], MEof)
              | PFuel => ([], MFuel)
              end
        | PEof => ([], MEof)
        | PFuel => ([], MFuel)
        end
    end.
  Definition run_main (ts : list tok) : list (tok * list ascii) * mend :=
    main_loop (S (length ts)) (bs "::") [] (Inp [] [] [] ts).
End Main.

(** * The XML descriptor

    xml_common.h, xml_pack_base.h, xml_unpack_base.h, xml_pack_epilogue.h,
    polyAccessXMLPack.h and the XML part of stringKeyMap_epilogue.h.

    Simplifications: the "C" locale; an output stream that never fails; [abort] is never
    set; [schema] is empty (no xmlns attribute is written; attributes are parsed).
    Input streams are finite byte sequences; both the istream and the FILE* accessors
    behave alike.  Floating point conversion to and from text is a parameter. *)
From Verif Require Import Base SMap Dec Desc_Model Json_Model.

(** ** Characters *)
Definition chr (n : N) : ascii := ascii_of_N n.
(** [char] is signed *)
Definition sval (c : ascii) : Z :=
  let n := Z.of_N (N_of_ascii c) in if (n <? 128)%Z then n else (n - 256)%Z.
Definition isgraph (c : ascii) : bool := let n := N_of_ascii c in ((33 <=? n) && (n <=? 126))%N.
(** [setfill('0') << setw(4)], default (right) adjustment: the fill goes before the sign *)
Definition setw (w : nat) (fill : ascii) (s : list ascii) : list ascii := repeat fill (w - length s) ++ s.
(** xml_pack_base.h 30-47 *)
Definition quote (c : ascii) : list ascii :=
  if ascii_dec c "&" then bs "&amp;"
  else if ascii_dec c "<" then bs "&lt;"
  else if ascii_dec c ">" then bs "&gt;"
  else if ascii_dec c "'" then bs "&apos;"
  else if ascii_dec c """" then bs "&quot;"
  else if isgraph c then [c]
  else bs "&#" ++ setw 4 "0" (decZ (sval c)) ++ bs ";".
(** xml_pack_base.h 197-202 *)
Definition quotes (s : list ascii) : list ascii := concat (map quote s).

(** ** XMLtoken: xml_unpack_base.h 87-311 *)
(** 104-109 *)
Fixpoint gobble_ws (s : list ascii) : list ascii :=
  match s with c :: s' => if isspace c then gobble_ws s' else s | [] => [] end.
(** 126-144; [None] is the exception thrown at end of file *)
Fixpoint gobble_comment (level : nat) (instr : bool) (s : list ascii) : option (list ascii) :=
  match level with
  | O => Some (gobble_ws s)
  | S l =>
      match s with
      | [] => None
      | c :: s' =>
          let instr := if ascii_dec c """" then negb instr else instr in
          if instr then gobble_comment level instr s'
          else if ascii_dec c "<" then gobble_comment (S level) instr s'
          else if ascii_dec c ">" then gobble_comment l instr s'
          else gobble_comment level instr s'
      end
  end.
(** the part of the input before and after the next ';' *)
Fixpoint to_semi (s : list ascii) : option (list ascii * list ascii) :=
  match s with
  | [] => None
  | c :: s' => if ascii_dec c ";" then Some ([], s')
               else match to_semi s' with Some (a, r) => Some (c :: a, r) | None => None end
  end.
(** [std::strtol] (values beyond [long] saturate in C; here they are exact, and both are
    out of the range tested) *)
Definition strtol (base : N) (s : list ascii) : Z :=
  let s := gobble_ws s in
  let '(neg, s) := match s with
                   | c :: s' => if ascii_dec c "-" then (true, s') else if ascii_dec c "+" then (false, s') else (false, s)
                   | [] => (false, s)
                   end in
  let s := match s with
           | z :: x :: h :: s' =>
               if (base =? 16)%N && (if ascii_dec z "0" then true else false)
                  && ((if ascii_dec x "x" then true else false) || (if ascii_dec x "X" then true else false))
                  && match digval 16 h with Some _ => true | None => false end
               then h :: s' else s
           | _ => s
           end in
  let v := Z.of_N (fst (digits base s 0 false)) in
  if neg then (- v)%Z else v.
(** [char(r)] *)
Definition to_char (r : Z) : ascii := chr (Z.to_N (r mod 256)).
Definition in_char (r : Z) : bool := ((-128 <=? r) && (r <=? 127))%Z.
(** 146-180 *)
Definition entity (name : list ascii) : option ascii :=
  if beq name (bs "amp") then Some "&"%char
  else if beq name (bs "lt") then Some "<"%char
  else if beq name (bs "gt") then Some ">"%char
  else if beq name (bs "quot") then Some """"%char
  else if beq name (bs "apos") then Some "'"%char
  else match name with
       | c0 :: name' =>
           if ascii_dec c0 "#" then
             let r := match name' with
                      | c1 :: h => if ascii_dec c1 "x" then strtol 16 h else strtol 10 name'
                      | [] => 0%Z
                      end in
             if in_char r then Some (to_char r) else None
           else None
       | [] => None
       end.
Definition parse_entity (s : list ascii) : option (ascii * list ascii) :=
  match to_semi s with
  | Some (name, r) => match entity name with Some c => Some (c, r) | None => None end
  | None => None
  end.

(** result of reading a token: the token, the rest of the input and [nexttok];
    [TFuel] is only there to make the functions total: C32 shows it never happens *)
Inductive tres := TTok (tok : list ascii) (inp : list ascii) (nxt : ascii) | TErr | TFuel.
(** 184-201 *)
Definition retval (c : ascii) (tok inp : list ascii) : tres :=
  match tok with
  | [] => TTok (if ascii_dec c "/" then bs "</" else if ascii_dec c "\" then bs "/>" else [c]) inp nul
  | _ => TTok tok inp c
  end.
(** 208-212: the look-ahead; returns leadin, the last character read and the rest *)
Fixpoint lookahead (n : nat) (leadin : list ascii) (c : ascii) (s : list ascii) : list ascii * ascii * list ascii :=
  match n with
  | O => (leadin, c, s)
  | S n' => match s with
            | [] => (leadin, c, [])
            | x :: s' => if ascii_dec x ">" then (leadin, x, s') else lookahead n' (leadin ++ [x]) x s'
            end
  end.
(** 216-230: inside CDATA.  [inl]: returned [tok]; [inr]: a NUL ended the loop *)
Inductive cdres := CDone (tok inp : list ascii) | CNul (tok inp : list ascii) | CErr.
Fixpoint cdata (leadin tok s : list ascii) : cdres :=
  match s with
  | [] => CErr
  | c :: s' =>
      if ascii_dec c nul then CNul tok s'
      else if ascii_dec c "]" then
        (if beq leadin (bs "]") then cdata (leadin ++ [c]) tok s' else cdata [c] tok s')
      else if (if ascii_dec c ">" then true else false) && beq leadin (bs "]]") then CDone tok s'
      else cdata [] (tok ++ leadin ++ [c]) s'
  end.
(** 274-284: string literal *)
Fixpoint strlit (fuel : nat) (term : ascii) (tok s : list ascii) : tres :=
  match fuel with
  | O => TFuel
  | S f =>
      match s with
      | [] => TErr
      | c :: s' =>
          if ascii_dec c term then TTok tok s' nul
          else if ascii_dec c "&" then
            match parse_entity s' with
            | Some (x, s'') => strlit f term (tok ++ [x]) s''
            | None => TErr
            end
          else strlit f term (tok ++ [c]) s'
      end
  end.
(** 264-311: the loop of [token()].  A string literal token leaves [nexttok] 0. *)
Fixpoint tloop (fuel : nat) (tok s : list ascii) : tres :=
  match fuel with
  | O => TFuel
  | S f =>
      match s with
      | [] => match tok with [] => TTok [] [] nul | _ => TErr end
      | c :: s' =>
          if isspace c then retval c tok s'
          else if ascii_dec c "&" then
            match parse_entity s' with
            | Some (x, s'') => tloop f (tok ++ [x]) s''
            | None => TErr
            end
          else if ascii_dec c "'" then strlit f c tok s'
          else if ascii_dec c """" then strlit f c tok s'
          else if ascii_dec c "<" then
            (* processOpenXMLTag 238-252 *)
            match s' with
            | [] => TErr
            | c1 :: s1 =>
                if ascii_dec c1 "!" then
                  (* processBang 204-235 *)
                  let '(leadin, last, s2) := lookahead 7 [] c1 s1 in
                  if beq leadin (bs "[CDATA[") then
                    match cdata [] tok s2 with
                    | CErr => TErr
                    | CDone tok' s3 => match tok' with [] => tloop f tok' s3 | _ => TTok tok' s3 nul end
                    | CNul tok' s3 => tloop f tok' s3
                    end
                  else if ascii_dec last ">" then tloop f tok s2
                  else match gobble_comment 1 false s2 with Some s3 => tloop f tok s3 | None => TErr end
                else if ascii_dec c1 "?" then
                  match gobble_comment 1 false s1 with Some s2 => tloop f tok s2 | None => TErr end
                else if ascii_dec c1 "/" then retval "/" tok s1
                else retval "<" tok s'
            end
          else if ascii_dec c "/" then
            match s' with
            | [] => TErr
            | c1 :: s1 => if ascii_dec c1 ">" then retval "\" tok s1 else tloop f (tok ++ [c]) s'
            end
          else if ascii_dec c ">" then retval c tok s'
          else if ascii_dec c "=" then retval c tok s'
          else tloop f (tok ++ [c]) s'
      end
  end.
(** 254-262 *)
Record tst := { inp : list ascii; nxt : ascii }.
Definition token (st : tst) : tres :=
  if ascii_dec (nxt st) nul then tloop (S (length (inp st))) [] (inp st)
  else retval (nxt st) [] (inp st).

(** ** xml_unpack_t *)
Notation cmap := (list (list ascii * list ascii)).
Notation tmap := (list (list ascii * N)).
Inductive pres (A : Type) := POk (a : A) | PErr | PFuel.
Arguments POk {A} a. Arguments PErr {A}. Arguments PFuel {A}.
Definition pbind {A B} (m : pres A) (f : A -> pres B) : pres B :=
  match m with POk a => f a | PErr => PErr | PFuel => PFuel end.
Notation "' p <= m ;; k" := (pbind m (fun p => k)) (at level 61, p pattern, m at next level, right associativity).
(** 115-119 *)
Definition token_no_eof (st : tst) : pres (list ascii * tst) :=
  match token st with
  | TTok [] _ _ => PErr
  | TTok tok i n => POk (tok, {| inp := i; nxt := n |})
  | TErr => PErr
  | TFuel => PFuel
  end.
(** 43-50 *)
Definition all_space (s : list ascii) : bool := match s with [] => false | _ => forallb isspace s end.
Definition hash : ascii := "#".
(** xml_common.h 14-19 *)
Definition idx (prefix : list ascii) (i : N) : list ascii := prefix ++ hash :: dec i.
(** [tokenCount[k]] *)
Definition cnt (tc : tmap) (k : list ascii) : N := match mfind bcmp k tc with Some n => n | None => 0%N end.

(** [while (isspace(tok=stream.tokenNoEOF()));] *)
Fixpoint skip_ws (fuel : nat) (st : tst) : pres (list ascii * tst) :=
  match fuel with
  | O => PFuel
  | S f => '(tok, st') <= token_no_eof st ;; if all_space tok then skip_ws f st' else POk (tok, st')
  end.
(** 453-461 *)
Definition process_attribute (fuel : nat) (st : tst) (scope : list ascii) (cm : cmap) : pres (tst * cmap) :=
  '(tok, st1) <= skip_ws fuel st ;;
  if beq tok (bs "=") then
    '(tok2, st2) <= skip_ws fuel st1 ;; POk (st2, mset bcmp scope tok2 cm)
  else PErr.
(** 488-489; returns whether the tag was empty *)
Fixpoint attributes (fuel : nat) (st : tst) (sidx : list ascii) (cm : cmap) : pres (bool * tst * cmap) :=
  match fuel with
  | O => PFuel
  | S f =>
      '(tok, st1) <= token_no_eof st ;;
      if beq tok (bs ">") then POk (false, st1, cm)
      else if beq tok (bs "/>") then POk (true, st1, cm)
      else if all_space tok then attributes f st1 sidx cm
      else '(st2, cm2) <= process_attribute f st1 (sidx ++ dot :: tok) cm ;; attributes f st2 sidx cm2
  end.
(** 508 *)
Fixpoint skip_to_gt (fuel : nat) (tok : list ascii) (st : tst) : pres tst :=
  if beq tok (bs ">") then POk st
  else match fuel with
       | O => PFuel
       | S f => '(tok', st') <= token_no_eof st ;; skip_to_gt f tok' st'
       end.
(** [scope.length()-scope.rfind(tok)!=tok.length()]: [tok] is a suffix of [scope].
    (If [tok] does not occur, [rfind] is npos and the difference is
    [scope.length()+1], which equals [tok.length()] for any token one longer.) *)
Fixpoint srfind (t s : list ascii) : option nat :=
  match s with
  | [] => match t with [] => Some O | _ => None end
  | _ :: s' => match srfind t s' with
               | Some i => Some (S i)
               | None => if beq t (firstn (length t) s) then Some O else None
               end
  end.
Definition endtag_ok (scope tok : list ascii) : bool :=
  match srfind tok scope with
  | Some i => (length scope - i =? length tok)%nat
  | None => (S (length scope) =? length tok)%nat
  end.
(** 480-509 *)
Fixpoint pelem (fuel : nat) (st : tst) (scope : list ascii) (cm : cmap) (tc : tmap) {struct fuel}
  : pres (tst * cmap * tmap) :=
  match fuel with
  | O => PFuel
  | S f =>
      let k := cnt tc scope in
      let sidx := idx scope k in
      let tc := mset bcmp scope (k + 1)%N tc in
      '(e, st1, cm) <= attributes f st sidx cm ;;
      if e then POk (st1, cm, tc)
      else
        '(content, st2, cm, tc) <= pcont f st1 sidx [] cm tc ;;
        let cm := match content with [] => cm | _ => mset bcmp sidx content cm end in
        '(tok, st3) <= token_no_eof st2 ;;
        if endtag_ok scope tok then '(st4) <= skip_to_gt f tok st3 ;; POk (st4, cm, tc) else PErr
  end
(** 495-499 *)
with pcont (fuel : nat) (st : tst) (sidx content : list ascii) (cm : cmap) (tc : tmap) {struct fuel}
  : pres (list ascii * tst * cmap * tmap) :=
  match fuel with
  | O => PFuel
  | S f =>
      '(tok, st1) <= token_no_eof st ;;
      if beq tok (bs "</") then POk (content, st1, cm, tc)
      else if beq tok (bs "<") then
        '(name, st2) <= token_no_eof st1 ;;
        '(st3, cm, tc) <= pelem f st2 (sidx ++ dot :: name) cm tc ;;
        pcont f st3 sidx content cm tc
      else pcont f st1 sidx (content ++ tok) cm tc
  end.
(** 467-478: [while (isspace(tok=stream.token()));] *)
Fixpoint skip_ws0 (fuel : nat) (st : tst) : tres :=
  match fuel with
  | O => TFuel
  | S f => match token st with
           | TTok tok i n => if all_space tok then skip_ws0 f {| inp := i; nxt := n |} else TTok tok i n
           | r => r
           end
  end.
Definition fuel_for (s : list ascii) : nat := 3 + 2 * length s.
Definition parse (s : list ascii) (cm : cmap) (tc : tmap) : pres (cmap * tmap) :=
  let f := fuel_for s in
  match skip_ws0 f {| inp := s; nxt := nul |} with
  | TTok [] _ _ => POk (cm, tc)
  | TTok tok i n =>
      if beq tok (bs "<") then
        '(name, st) <= token_no_eof {| inp := i; nxt := n |} ;;
        '(_, cm, tc) <= pelem f st name cm tc ;; POk (cm, tc)
      else PErr
  | TErr => PErr
  | TFuel => PFuel
  end.

(** 332-354.  [pend] is [key.substr(start,end-start)]. *)
Fixpoint ahn (key pend r : list ascii) (hash_read : bool) : list ascii :=
  match key with
  | [] => r ++ pend ++ (if hash_read then [] else bs "#0")
  | c :: key' =>
      if ascii_dec c hash then ahn key' (pend ++ [c]) r true
      else if ascii_dec c dot then
        (if hash_read then ahn key' (pend ++ [c]) r false
         else ahn key' [c] (r ++ pend ++ bs "#0") false)
      else ahn key' (pend ++ [c]) r hash_read
  end.
Definition add_hash_noughts (key : list ascii) : list ascii := ahn key [] [] false.
(** 442-446 *)
Definition count (tc : tmap) (key : list ascii) : N :=
  let k := add_hash_noughts key in
  cnt tc (match rfind hash k with Some i => firstn i k | None => k end).
Definition exists_ (tc : tmap) (key : list ascii) : bool := (0 <? count tc key)%N.

(** ** Types of described objects.  [e] in a container is the tag used for its elements,
    the last part of the element type's name (xml_pack_base.h 217-221, 231-236). *)
Inductive xty : Type :=
| XBool | XChar | XInt (sgn : bool) (bits : Z) | XFlt | XStr
| XByte                                    (* signed char, unsigned char: written raw *)
| XCdata
| XEnum (ks : list (list ascii * Z))
| XSeq (fixed : option nat) (e : list ascii) (t : xty)
| XArr (n : nat) (e : list ascii) (t : xty)   (* n: product of the dimensions *)
| XAssoc (multi : bool) (c : nat) (e : list ascii) (t : xty)
| XPair (a b : xty)
| XTup (ts : xtys)                         (* component types with their tags *)
| XStruct (fs : xflds)
| XPtr (t : xty)                           (* smart pointer to a non-polymorphic type *)
| XPoly (als : xalts)                      (* smart pointer to a PolyXMLBase *)
| XMap (t : xty)                           (* StringKeyMap *)
with xtys := xtnil | xtcons (e : list ascii) (t : xty) (ts : xtys)
with xflds := XNil | XCons (n : list ascii) (t : xty) (fs : xflds)
with xalts := XANil | XACons (tag : list ascii) (fs : xflds) (als : xalts).
Scheme xty_mut := Induction for xty Sort Prop
  with xtys_mut := Induction for xtys Sort Prop
  with xflds_mut := Induction for xflds Sort Prop
  with xalts_mut := Induction for xalts Sort Prop.
Combined Scheme xty_mutind from xty_mut, xtys_mut, xflds_mut, xalts_mut.

(** ** xml_pack_t: output and taglevel *)
(** xml_pack_base.h 60-66 (a C string: stops at NUL) *)
Definition level (d : list ascii) : nat :=
  match cstr d with [] => O | s => S (length (filter (fun c => if ascii_dec c dot then true else false) s)) end.
Definition nl : ascii := chr 10.

Section Xml.
Variable pp : bool.                         (* prettyPrint *)
Variable fput : N -> list ascii.            (* [put] of a float or double, 118-132 *)
Variable fget : list ascii -> N -> N.       (* [stoT], xml_unpack_base.h 388-407 *)
Variable klt : nat -> jval -> jval -> bool. (* orders of associative containers *)

(** 68-69 *)
Definition pretty (d : list ascii) : list ascii := if pp then repeat " "%char (level d) else [].
Definition endpretty : list ascii := if pp then [nl] else [].
(** 75-96: start tag if the nesting level allows, end tag if it did *)
Definition opentag (d : list ascii) : list ascii := pretty d ++ bs "<" ++ tail d ++ bs ">" ++ endpretty.
Definition closetag (d : list ascii) : list ascii := pretty d ++ bs "</" ++ tail d ++ bs ">" ++ endpretty.
(** [Tag tag(x,d); body]: 109-116 *)
Definition with_tag (d : list ascii) (tl : nat) (body : nat -> list ascii * nat) : list ascii * nat :=
  if (tl <? level d)%nat then
    let '(o, tl') := body (level d) in (opentag d ++ o ++ closetag d, (tl' - 1)%nat)
  else body tl.
(** 145-155 *)
Definition pack_text (d s : list ascii) (tl : nat) : list ascii * nat :=
  (pretty d ++ bs "<" ++ tail d ++ bs ">" ++ s ++ bs "</" ++ tail d ++ bs ">" ++ endpretty, tl).

Fixpoint many {A} (f : A -> nat -> list ascii * nat) (l : list A) (tl : nat) : list ascii * nat :=
  match l with
  | [] => ([], tl)
  | x :: l' => let '(o1, tl1) := f x tl in let '(o2, tl2) := many f l' tl1 in (o1 ++ o2, tl2)
  end.
Definition seq2 (f g : nat -> list ascii * nat) (tl : nat) : list ascii * nat :=
  let '(o1, tl1) := f tl in let '(o2, tl2) := g tl1 in (o1 ++ o2, tl2).

(** xml_pack.  [cst]: the object is reached through a const reference, as the elements
    of containers are; then a smart pointer is wrapped in a tag of its own *)
Fixpoint xpack (cst : bool) (t : xty) (d : list ascii) (v : jval) (tl : nat) {struct t} : list ascii * nat :=
  match t, v with
  | XBool, VB b => pack_text d (if b then bs "true" else bs "false") tl        (* 174-175 *)
  | XChar, VC c => pack_text d (quote c) tl                                    (* 177-178 *)
  | XByte, VC c => pack_text d [c] tl                                          (* 169-172: [o<<x] *)
  | XInt _ _, VI z => pack_text d (decZ z) tl                                  (* 169-172 *)
  | XFlt, VD x => pack_text d (fput x) tl
  | XStr, VS s => pack_text d (quotes s) tl                                    (* 197-202 *)
  | XCdata, VS s => with_tag d tl (fun tl => (bs "<![CDATA[" ++ s ++ bs "]]>", tl))
  | XEnum ks, VI z => pack_text d (ek_sym (ek_make ks) z) tl                   (* 184-187 *)
  | XSeq _ e t', VL l | XAssoc _ _ e t', VL l =>                               (* 226-240 *)
      with_tag d tl (many (fun x => xpack true t' (d ++ dot :: e) x) l)
  | XArr _ e t', VL l =>                                                       (* 208-224 *)
      with_tag d tl (many (fun x => xpack false t' (d ++ dot :: e) x) l)
  | XPair a b, VP x y =>                                                       (* epilogue 202-212 *)
      with_tag d tl (fun tl => with_tag d tl
        (seq2 (xpack false a (d ++ bs ".first") x) (xpack false b (d ++ bs ".second") y)))
  | XTup ts, VL l => with_tag d tl (fun tl => with_tag d tl (xpack_tup ts l))  (* epilogue 33-59 *)
  | XStruct fs, VL l => with_tag d tl (xpack_flds fs d l)                      (* epilogue 133-139 *)
  | XPtr t', _ =>                                                              (* polyAccessXMLPack 38-48, 150-155 *)
      let body tl := match v with VPtr x => xpack false t' d x tl | _ => ([], tl) end in
      if cst then with_tag d tl body else body tl
  | XPoly als, _ =>                                                            (* 16-29, polyXMLBase 28-34 *)
      let body tl :=
        match v with
        | VPoly tag l => with_tag d tl (seq2 (pack_text (d ++ bs ".type") (quotes tag)) (xpack_alts als tag d l))
        | _ => ([], tl)
        end in
      if cst then with_tag d tl body else body tl
  | XMap t', VM kvs =>                                                         (* stringKeyMap_epilogue 118-129 *)
      with_tag d tl (fun tl => with_tag d tl
        (many (fun p => xpack true t' (d ++ dot :: fst p) (snd p)) kvs))
  | _, _ => ([], tl)
  end
with xpack_tup (ts : xtys) (l : list jval) (tl : nat) {struct ts} : list ascii * nat :=
  match ts, l with
  | xtcons e t ts', x :: l' => seq2 (xpack false t e x) (xpack_tup ts' l') tl
  | _, _ => ([], tl)
  end
with xpack_flds (fs : xflds) (d : list ascii) (l : list jval) (tl : nat) {struct fs} : list ascii * nat :=
  match fs, l with
  | XCons n t fs', x :: l' => seq2 (xpack false t (d ++ dot :: n) x) (xpack_flds fs' d l') tl
  | _, _ => ([], tl)
  end
with xpack_alts (als : xalts) (tag d : list ascii) (l : list jval) (tl : nat) {struct als} : list ascii * nat :=
  match als with
  | XANil => ([], tl)
  | XACons tg fs als' => if beq tg tag then xpack_flds fs d l tl else xpack_alts als' tag d l tl
  end.
Definition root := bs "root".
(** epilogue 174-175: [xml_pack_t(o) << v] *)
Definition to_xml (t : xty) (v : jval) : list ascii := fst (xpack false t root v 0).

(** ** xml_unpack *)
Record xdb := { xcm : cmap; xtc : tmap; miss : bool }.   (* miss: missingException *)
(** 325-329, 410-414: content of a key; [PErr] if missing and missingException *)
Definition lookup (x : xdb) (d : list ascii) : pres (option (list ascii)) :=
  match mfind bcmp (add_hash_noughts d) (xcm x) with
  | Some s => POk (Some s)
  | None => if miss x then PErr else POk None
  end.
(** [is>>x] for an integer type *)
Definition read_int (sgn : bool) (bits : Z) (s : list ascii) : Z :=
  (let s := gobble_ws s in
   let '(neg, s) := match s with
                    | c :: s' => if ascii_dec c "-" then (true, s') else if ascii_dec c "+" then (false, s') else (false, s)
                    | [] => (false, s)
                    end in
   let '(m, _) := digits 10 s 0 false in
   let m := Z.of_N m in
   if sgn then
     let v := if neg then - m else m in
     if v <? - 2 ^ (bits - 1) then - 2 ^ (bits - 1) else if 2 ^ (bits - 1) <=? v then 2 ^ (bits - 1) - 1 else v
   else if 2 ^ bits <=? m then 2 ^ bits - 1 else if neg then (- m) mod 2 ^ bits else m)%Z.
(** 416-428; [tolower] only affects A-Z in the "C" locale *)
Definition lower (c : ascii) : ascii :=
  (let n := N_of_ascii c in if (65 <=? n) && (n <=? 90) then chr (n + 32) else c)%N.
Definition read_bool (s : list ascii) : bool :=
  let v := map lower (filter (fun c => negb (isspace c)) s) in
  beq v (bs "1") || beq v (bs "t") || beq v (bs "true") || beq v (bs "y") || beq v (bs "yes") || beq v (bs "on").
(** [is>>c] for a char *)
Definition read_char (s : list ascii) (old : ascii) : ascii := match gobble_ws s with c :: _ => c | [] => old end.

(** default constructed objects *)
Fixpoint xdflt (t : xty) : jval :=
  match t with
  | XBool => VB false
  | XChar | XByte => VC nul
  | XInt _ _ | XEnum _ => VI 0
  | XFlt => VD 0
  | XStr | XCdata => VS []
  | XSeq (Some n) _ t' | XArr n _ t' => VL (repeat (xdflt t') n)
  | XSeq None _ _ | XAssoc _ _ _ _ => VL []
  | XPair a b => VP (xdflt a) (xdflt b)
  | XTup ts => VL (xdflt_tys ts)
  | XStruct fs => VL (xdflt_flds fs)
  | XPtr _ | XPoly _ => VNul
  | XMap _ => VM []
  end
with xdflt_tys (ts : xtys) : list jval :=
  match ts with xtnil => [] | xtcons _ t ts' => xdflt t :: xdflt_tys ts' end
with xdflt_flds (fs : xflds) : list jval :=
  match fs with XNil => [] | XCons _ t fs' => xdflt t :: xdflt_flds fs' end.

(** unpacking the elements of a container or array in turn *)
Fixpoint xeach (f : N -> jval -> pres jval) (i : N) (l : list jval) : pres (list jval) :=
  match l with
  | [] => POk []
  | x :: l' => '(y) <= f i x ;; '(ys) <= xeach f (i + 1)%N l' ;; POk (y :: ys)
  end.
Fixpoint xins (f : N -> pres jval) (multi : bool) (c : nat) (n : nat) (i : N) (acc : list jval) : pres (list jval) :=
  match n with
  | O => POk acc
  | S n' => '(v) <= f i ;; xins f multi c n' (i + 1)%N (ins klt multi c v acc)
  end.

Fixpoint xunpack (x : xdb) (t : xty) (d : list ascii) (a : jval) {struct t} : pres jval :=
  match t with
  | XBool => '(o) <= lookup x d ;; POk (match o with Some s => VB (read_bool s) | None => a end)
  | XChar | XByte => '(o) <= lookup x d ;;
      POk (match o, a with Some s, VC old => VC (read_char s old) | _, _ => a end)
  | XInt sgn bits => '(o) <= lookup x d ;; POk (match o with Some s => VI (read_int sgn bits s) | None => a end)
  | XFlt => '(o) <= lookup x d ;; POk (match o, a with Some s, VD old => VD (fget s old) | _, _ => a end)
  | XStr | XCdata => '(o) <= lookup x d ;; POk (match o with Some s => VS s | None => a end)
  | XEnum ks =>                                                                (* 550-558 *)
      '(o) <= lookup x d ;;
      let tmp := match o with Some s => s | None => [] end in
      POk (VI (ek_val (ek_make ks) (filter (fun c => negb (isspace c)) tmp)))
  | XSeq fixed e t' =>                                                         (* 561-577 *)
      let n := count (xtc x) (d ++ dot :: e) in
      match fixed, a with
      | None, _ => '(r) <= xeach (fun i v => xunpack x t' (idx (d ++ dot :: e) i) v) 0
                             (repeat (xdflt t') (N.to_nat n)) ;; POk (VL r)
      | Some _, VL l => '(r) <= xeach (fun i v => xunpack x t' (idx (d ++ dot :: e) i) v) 0
                                  (firstn (N.to_nat n) l) ;; POk (VL (r ++ skipn (N.to_nat n) l))
      | _, _ => PErr
      end
  | XArr _ e t' =>                                                             (* 532-547 *)
      match a with
      | VL l => '(r) <= xeach (fun i v => xunpack x t' (idx (d ++ dot :: e) i) v) 0 l ;; POk (VL r)
      | _ => PErr
      end
  | XAssoc multi c e t' =>                                                     (* 579-597 *)
      let prefix := match d with [] => e | _ => d ++ dot :: e end in
      '(r) <= xins (fun i => xunpack x t' (idx prefix i) (xdflt t')) multi c
                   (N.to_nat (count (xtc x) prefix)) 0 [] ;; POk (VL r)
  | XPair ta tb =>                                                             (* epilogue 214-223 *)
      match a with
      | VP u v => '(r1) <= xunpack x ta (d ++ bs ".first") u ;;
                  '(r2) <= xunpack x tb (d ++ bs ".second") v ;; POk (VP r1 r2)
      | _ => PErr
      end
  | XTup ts =>                                                                 (* epilogue 82-108 *)
      match ts, a with
      | xtcons e _ _, VL l => '(r) <= xunpack_tup x ts (d ++ dot :: e) 0 l ;; POk (VL r)
      | _, _ => POk a
      end
  | XStruct fs => match a with VL l => '(r) <= xunpack_flds x fs d l ;; POk (VL r) | _ => PErr end
  | XPtr t' =>                                                                 (* polyAccessXMLPack 97-107 *)
      if exists_ (xtc x) d then '(v) <= xunpack x t' d (xdflt t') ;; POk (VPtr v) else POk VNul
  | XPoly als =>                                                               (* 73-88 *)
      if exists_ (xtc x) (d ++ bs ".type") then
        '(o) <= lookup x (d ++ bs ".type") ;;
        xunpack_alts x als (match o with Some s => s | None => [] end) d
      else POk VNul
  | XMap t' =>                                                                 (* stringKeyMap_epilogue 130-146 *)
      (* [firstToken(d)..endToken(d)]: the keys k with not k<d and not d<k *)
      match a with
      | VM m =>
          match mfind bcmp d (xcm x) with
          | Some _ =>
              let key := match rfind dot d with Some i => skipn i d | None => d end in
              let old := match mfind bcmp key m with Some v => v | None => xdflt t' end in
              '(v) <= xunpack x t' d old ;; POk (VM (mset bcmp key v m))
          | None => POk a
          end
      | _ => PErr
      end
  end
with xunpack_tup (x : xdb) (ts : xtys) (d : list ascii) (i : N) (l : list jval) {struct ts} : pres (list jval) :=
  match ts, l with
  | xtcons _ t ts', v :: l' =>
      '(r) <= xunpack x t (idx d i) v ;; '(rs) <= xunpack_tup x ts' d (i + 1)%N l' ;; POk (r :: rs)
  | _, _ => POk []
  end
with xunpack_flds (x : xdb) (fs : xflds) (d : list ascii) (l : list jval) {struct fs} : pres (list jval) :=
  match fs, l with
  | XNil, _ => POk []
  | XCons n t fs', v :: l' =>
      '(r) <= xunpack x t (d ++ dot :: n) v ;; '(rs) <= xunpack_flds x fs' d l' ;; POk (r :: rs)
  | _, _ => PErr
  end
with xunpack_alts (x : xdb) (als : xalts) (tag d : list ascii) {struct als} : pres jval :=
  match als with
  | XANil => PErr
  | XACons tg fs als' =>
      if beq tg tag then '(r) <= xunpack_flds x fs d (xdflt_flds fs) ;; POk (VPoly tag r)
      else xunpack_alts x als' tag d
  end.
(** [xml_unpack_t(i) >> a] *)
Definition of_xml (t : xty) (s : list ascii) (a : jval) : pres jval :=
  '(cm, tc) <= parse s [] [] ;; xunpack {| xcm := cm; xtc := tc; miss := false |} t root a.
End Xml.

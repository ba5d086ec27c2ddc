(** * The parser of the descriptor generator: parse_class, parse_typedef,
      assign_class_action, assign_enum_action and the loop of main, classdesc.cc

    Not modelled: the options qt and objc (taken as off); [virtualsdb], which is filled but never
    used for output; line numbers; [action_t::tnTempl]; the printing of the descriptors. *)
From Verif Require Import Base SMap Dec Desc_Model Tok_Model Parse_Model.

(** tokeninput.h isIdentifierStart *)
Definition isstart (c : ascii) : bool :=
  let n := nat_of_ascii c in
  ((97 <=? n) && (n <=? 122) || (65 <=? n) && (n <=? 90) || (n =? 95))%nat%bool.
Definition idt (t : tok) : bool := isstart (first t).

Definition has_lt (s : tok) : bool := existsb (ceq "<"%char) s.
(** the options of the command line *)
Record opts := Opts { respect_private : bool; use_mbr : bool; onBase : bool; overloading : bool; typeNm : bool }.
(** classdesc.cc:66-73 act_pair *)
Record act := Act { a_name : tok; a_action : tok; a_member : tok; a_static : bool; a_base : bool }.
(** classdesc.cc:77-130 action_t; [x_templ] as given *)
Record action := Action { x_type : tok; x_acts : list act; x_ns : tok; x_templ : tok }.
(** classdesc.cc:203-228 MemberSig *)
Inductive sigty := TNone | TConst | TStatic | TCtor.
Record msig := Sig { s_decl : tok; s_ret : tok; s_args : tok; s_prefix : tok; s_name : tok; s_ty : sigty }.
(** the globals.  The maps nested, enum_keys and overloadTempVarDecls are kept as the sequence of
    their push_backs; type_defined as the sequence of calls (true: defined). *)
(** the maps omit, treenode and graphnode of main, as the sequence of their insertions *)
Inductive pkind := POmit | PTree | PGraph.
Record glob := Glob {
  g_actions : list action; g_nested : list (tok * tok); g_enums : list (tok * tok);
  g_over : list (tok * msig); g_types : list (bool * tok); g_cnt : N; g_out : list tok; g_err : bool;
  g_ns : tok; g_prag : list (pkind * tok) }.
Definition g0 : glob := Glob [] [] [] [] [] 0 [] false (bs "::") [].

Inductive cres (A : Type) :=
| COk (a : A) (g : glob) (i : inp)
| CEof (g : glob)            (* tokeninput::eof thrown *)
| CBad                       (* a loop that never ends, or undefined behaviour, on a string *)
| CFuel.                     (* the fuel of the model ran out; shown not to happen *)
Arguments COk {A}. Arguments CEof {A}. Arguments CBad {A}. Arguments CFuel {A}.
Definition C (A : Type) := glob -> inp -> cres A.
Definition cret {A} (a : A) : C A := fun g i => COk a g i.
Definition cbind {A B} (m : C A) (k : A -> C B) : C B := fun g i =>
  match m g i with COk a g i => k a g i | CEof g => CEof g | CBad => CBad | CFuel => CFuel end.
Notation "x :- m ;; k" := (cbind m (fun x => k)) (at level 61, m at next level, right associativity).
Notation "m ;- k" := (cbind m (fun _ => k)) (at level 61, right associativity).
Definition get : C inp := fun g i => COk i g i.
Definition put (i : inp) : C unit := fun g _ => COk tt g i.
Definition upd (f : glob -> glob) : C unit := fun g i => COk tt (f g) i.
Definition lift {A} (f : inp -> pres A) : C A := fun g i =>
  match f i with POk a j => COk a g j | PEof => CEof g | PFuel => CFuel end.
Definition opt {A} (o : option A) : C A := fun g i => match o with Some a => COk a g i | None => CBad end.
Definition nxt : C unit := lift next.
Definition gobb (l r : string) : C tok := lift (gobble l r).
Definition when (b : bool) (m : C unit) : C unit := if b then m else cret tt.

Definition add_action a g := Glob (g_actions g ++ [a]) (g_nested g) (g_enums g) (g_over g) (g_types g) (g_cnt g) (g_out g) (g_err g) (g_ns g) (g_prag g).
Definition add_nested p g := Glob (g_actions g) (g_nested g ++ [p]) (g_enums g) (g_over g) (g_types g) (g_cnt g) (g_out g) (g_err g) (g_ns g) (g_prag g).
Definition add_enum p g := Glob (g_actions g) (g_nested g) (g_enums g ++ [p]) (g_over g) (g_types g) (g_cnt g) (g_out g) (g_err g) (g_ns g) (g_prag g).
Definition add_over p g := Glob (g_actions g) (g_nested g) (g_enums g) (g_over g ++ [p]) (g_types g) (g_cnt g) (g_out g) (g_err g) (g_ns g) (g_prag g).
Definition add_type p g := Glob (g_actions g) (g_nested g) (g_enums g) (g_over g) (g_types g ++ [p]) (g_cnt g) (g_out g) (g_err g) (g_ns g) (g_prag g).
Definition add_out l g := Glob (g_actions g) (g_nested g) (g_enums g) (g_over g) (g_types g) (g_cnt g) (g_out g ++ l) (g_err g) (g_ns g) (g_prag g).
Definition inc_cnt g := Glob (g_actions g) (g_nested g) (g_enums g) (g_over g) (g_types g) (g_cnt g + 1)%N (g_out g) (g_err g) (g_ns g) (g_prag g).
Definition set_err g := Glob (g_actions g) (g_nested g) (g_enums g) (g_over g) (g_types g) (g_cnt g) (g_out g) true (g_ns g) (g_prag g).
Definition set_ns ns g := Glob (g_actions g) (g_nested g) (g_enums g) (g_over g) (g_types g) (g_cnt g) (g_out g) (g_err g) ns (g_prag g).
Definition add_prag l g := Glob (g_actions g) (g_nested g) (g_enums g) (g_over g) (g_types g) (g_cnt g) (g_out g) (g_err g) (g_ns g) (g_prag g ++ l).
Definition get_ns : C tok := fun g i => COk (g_ns g) g i.
(** classdesc.cc:81-85 the constructor of action_t *)
Definition new_action (ty : tok) (a : list act) (templ : tok) : C unit :=
  ns :- get_ns ;;
  upd (add_action (Action ty a (firstn (match rfind2 ns with Some p => p | None => 0 end) ns) templ)).

(** [while (!strchr(set,input.token[0])) input.nexttok();] *)
Fixpoint skipset (set : string) (fuel : nat) (i : inp) : pres unit :=
  match fuel with
  | O => PFuel
  | S f => if strchr set (first (tk i)) then POk tt i else pbind (next i) (fun _ i => skipset set f i)
  end.
Definition skip_set (set : string) : C unit := lift (fun i => skipset set (pbound i) i).
(** [while (input.token!=t) input.nexttok();] *)
Definition skip_tok (t : string) : C unit := lift (fun i => skip_to t (pbound i) i).
(** [while (input.token[0]!='(') input.nexttok();] *)
Fixpoint skipparen (fuel : nat) (i : inp) : pres unit :=
  match fuel with
  | O => PFuel
  | S f => if ceq (first (tk i)) "(" then POk tt i else pbind (next i) (fun _ i => skipparen f i)
  end.
Definition skip_paren : C unit := lift (fun i => skipparen (pbound i) i).

(** classdesc.cc:234-248 token_set, as the list of the insertions *)
Fixpoint token_list (l : list ascii) (cur : option tok) : list tok :=
  match l with
  | [] => match cur with Some t => [t] | None => [] end
  | c :: l' =>
      match cur with
      | Some t => if isident c then token_list l' (Some (t ++ [c])) else t :: token_list l' None
      | None => if isstart c then token_list l' (Some [c]) else token_list l' None
      end
  end.
Definition token_set (s : list ascii) : list tok := token_list s None.

(** classdesc.cc:250-288 assign_enum_action *)
Fixpoint enum_val (fuel : nat) (i : inp) : pres unit :=             (* 278-279 *)
  match fuel with
  | O => PFuel
  | S f => if (teq (tk i) "," || teq (tk i) "}")%bool then POk tt i else pbind (next i) (fun _ i => enum_val f i)
  end.
Fixpoint enum_loop (name : tok) (fuel : nat) : C unit :=           (* 270-281 *)
  match fuel with
  | O => fun _ _ => CFuel
  | S f =>
      i :- get ;;
      if teq (tk i) ";" then cret tt
      else
        when ((teq (tk i) "=" || teq (tk i) "," || teq (tk i) "}") && negb (teq (tk1 i) ",")) (upd (add_enum (name, tk1 i))) ;-
        when (teq (tk i) "=") (nxt ;- lift (fun i => enum_val (pbound i) i)) ;-
        nxt ;- enum_loop name f
  end.
Definition assign_enum_action (o : opts) (prefix : tok) : C unit :=
  i :- get ;;
  kw :- (if teq (tk i) "class" then nxt ;- cret (bs "enum class ") else cret (bs "enum ")) ;;
  i :- get ;;
  let bare := tk i in
  let name := kw ++ prefix ++ bare in
  nxt ;-
  i :- get ;;
  when (teq (tk i) ":") (skip_set ";{") ;-
  i :- get ;;
  when (teq (tk i) "{")
    (upd (add_nested (prefix, bare)) ;-
     enum_loop name (pbound i) ;-
     new_action name [Act [] (if typeNm o then bs "classdesc::enum_handle(arg)" else bs "(int&)arg") [] false false] []).

(** classdesc.cc:348-362 the local variables of parse_class.  [l_num]: num_instances, as the
    sequence of the increments; [l_using]: usingNames *)
Record loc := Loc {
  l_acts : list act; l_templ : bool; l_priv : bool; r_static : bool; r_const : bool; r_priv : bool;
  l_num : list tok; l_using : list tok; l_ret : tok; l_targs1 : tok }.
Definition w_templ b l := Loc (l_acts l) b (l_priv l) (r_static l) (r_const l) (r_priv l) (l_num l) (l_using l) (l_ret l) (l_targs1 l).
Definition w_priv b r l := Loc (l_acts l) (l_templ l) b (r_static l) (r_const l) r (l_num l) (l_using l) (l_ret l) (l_targs1 l).
Definition w_static b l := Loc (l_acts l) (l_templ l) (l_priv l) b (r_const l) (r_priv l) (l_num l) (l_using l) (l_ret l) (l_targs1 l).
Definition w_const b l := Loc (l_acts l) (l_templ l) (l_priv l) (r_static l) b (r_priv l) (l_num l) (l_using l) (l_ret l) (l_targs1 l).
Definition w_num n l := Loc (l_acts l) (l_templ l) (l_priv l) (r_static l) (r_const l) (r_priv l) n (l_using l) (l_ret l) (l_targs1 l).
Definition w_using n l := Loc (l_acts l) (l_templ l) (l_priv l) (r_static l) (r_const l) (r_priv l) (l_num l) n (l_ret l) (l_targs1 l).
Definition w_ret r l := Loc (l_acts l) (l_templ l) (l_priv l) (r_static l) (r_const l) (r_priv l) (l_num l) (l_using l) r (l_targs1 l).
Definition w_targs1 t l := Loc (l_acts l) (l_templ l) (l_priv l) (r_static l) (r_const l) (r_priv l) (l_num l) (l_using l) (l_ret l) t.
Definition w_acts a l := Loc a (l_templ l) (l_priv l) (r_static l) (r_const l) (r_priv l) (l_num l) (l_using l) (l_ret l) (l_targs1 l).

(** classdesc.cc:328-345 register_class *)
Definition register_class (name member action : tok) (l : loc) : loc :=
  let a := if (r_static l && r_const l)%bool then Act (bs "." ++ name) (bs "classdesc::is_const_static()," ++ action) [] false false
           else Act (bs "." ++ name) action member (r_static l) false in
  w_static false (if r_priv l then l else w_acts (l_acts l ++ [a]) l).

(** ** Base classes, classdesc.cc:364-462 *)
(** 377-398 from "<" on; [ac] is ang_count *)
Fixpoint base_angle (fuel : nat) (ac : Z) (b : tok) (i : inp) : pres tok :=
  match fuel with
  | O => PFuel
  | S f =>
      if (negb (ac =? 0)%Z || (negb (teq (tk1 i) ">") && negb (teq (tk1 i) ">>")))%bool then
        let b := b ++ tk i ++ [" "%char] in
        let ac := if teq (tk i) "<" then (ac + 1)%Z else ac in
        let ac := if teq (tk i) ">" then (ac - 1)%Z
                  else if teq (tk i) ">>" then (if (1 <? ac)%Z then ac - 2 else ac - 1)%Z else ac in
        let b := if ((teq (tk i) ">" || teq (tk i) ">>") && negb (ac =? 0)%Z)%bool then b ++ [" "%char] else b in
        pbind (next i) (fun _ i => base_angle f ac b i)
      else POk b i
  end.
(** 413-431 scanning backwards for "::" outside angle brackets: [l] is the part of baseclass
    before the position, reversed; [nxtc] the character after it; the result is the position *)
Fixpoint dblcolon (l : list ascii) (nxtc : ascii) (n : Z) : option nat :=
  match l with
  | [] => None
  | c :: l' =>
      if ceq c ">" then dblcolon l' c (n + 1)
      else if ceq c "<" then dblcolon l' c (n - 1)
      else if (ceq c ":" && (n =? 0)%Z && ceq nxtc ":")%bool then Some (length l')
      else dblcolon l' c n
  end.
Definition last_colon (b : tok) : option nat :=
  match rev b with
  | [] => None
  | c :: l => dblcolon l c (if ceq c ">" then 1 else 0)
  end.
(** 401-441 *)
Definition typename_needed (targs b : tok) : bool :=
  match last_colon b with
  | None => false
  | Some p => existsb (fun t => (existsb (beq t) (token_set targs) &&
                                 match find_from t b 0 with Some q => (q <? p)%nat | None => true end)%bool)
                      (token_set b)
  end.
Definition base_act (o : opts) (targs b : tok) : act :=
  Act [] (bs "classdesc::base_cast<" ++ (if typename_needed targs b then bs "typename " else []) ++ b ++ bs " >::cast(arg)")
      (if onBase o then b else []) false (onBase o).
(** 364-462; [pr] is is_private, [b] is baseclass *)
Fixpoint bases (o : opts) (is_class : bool) (targs : tok) (fuel : nat) (acts : list act) (pr : bool) (b : tok) (i : inp)
  : pres (list act * bool) :=
  match fuel with
  | O => PFuel
  | S f =>
      if teq (tk i) "virtual" then pbind (next i) (fun _ i => bases o is_class targs f acts pr b i)
      else if (teq (tk i) ":" || teq (tk i) "private" || teq (tk i) "protected" || teq (tk i) "public")%bool then
        let pr := if is_class then negb (teq (tk i) "public") else (teq (tk i) "private" || teq (tk i) "protected")%bool in
        pbind (next i) (fun _ i => bases o is_class targs f acts pr b i)
      else
        pbind (if teq (tk i) "<" then base_angle (pbound i) 0 b i else POk b i) (fun b i =>
          let here := (strchr ",{" (first (tk i)) && negb (beq b []))%bool in
          let acts := if (here && (negb (respect_private o) || negb pr))%bool then acts ++ [base_act o targs b] else acts in
          let pr := if here then is_class else pr in
          let b := if here then [] else b ++ tk i in
          if teq (tk i) "{" then POk (acts, pr) i
          else pbind (next i) (fun _ i => bases o is_class targs f acts pr b i))
  end.

(** ** Members, classdesc.cc:464-808 *)
(** 510-514 the look ahead over a typedef *)
Fixpoint td_skip (fuel : nat) (i : inp) : pres unit :=
  match fuel with
  | O => PFuel
  | S f =>
      if teq (tk i) ";" then POk tt i
      else pbind (if teq (tk i) "{" then pbind (gobble "{" "}" i) (fun _ i => POk tt i) else POk tt i)
             (fun _ i => pbind (next i) (fun _ i => td_skip f i))
  end.
(** 651-657 look ahead for const or deleted; the result: seen const, seen delete *)
Fixpoint fn_tail (fuel : nat) (c d : bool) (i : inp) : pres (bool * bool) :=
  match fuel with
  | O => PFuel
  | S f =>
      if strchr ";{" (first (tk i)) then POk (c, d) i
      else pbind (next i) (fun _ i => fn_tail f (c || teq (tk i) "const")%bool (d || teq (tk i) "delete")%bool i)
  end.
(** 697-713 strip default arguments *)
Fixpoint strip_defaults (l : list ascii) (braces : Z) (incl : bool) : list ascii :=
  match l with
  | [] => []
  | c :: l' =>
      if ceq c "=" then strip_defaults l' braces false
      else if ceq c "{" then strip_defaults l' (braces + 1) incl
      else if ceq c "}" then strip_defaults l' (braces - 1) incl
      else
        let incl := if (ceq c "," && (braces =? 0)%Z)%bool then true else incl in
        (if incl then [c] else []) ++ strip_defaults l' braces incl
  end.
(** 764-772 one dimension; at "]" *)
Fixpoint arr_in (fuel : nat) (acc : tok) (i : inp) : pres tok :=
  match fuel with
  | O => PFuel
  | S f => if teq (tk i) "]" then POk acc i
           else pbind (next i) (fun _ j => arr_in f (acc ++ [" "%char] ++ tk i) j)
  end.
(** 760-774; the result: dim, action2 *)
Fixpoint arr_dims (fuel : nat) (dim : nat) (acc : tok) (i : inp) : pres (nat * tok) :=
  match fuel with
  | O => PFuel
  | S f =>
      if teq (tk i) "[" then
        pbind (next i) (fun _ i => pbind (arr_in (pbound i) acc i) (fun acc i =>
          pbind (next i) (fun _ i => arr_dims f (S dim) (acc ++ [","%char]) i)))
      else POk (dim, acc) i
  end.
Fixpoint repeat_str (n : nat) (s : tok) : tok := match n with O => [] | S n => s ++ repeat_str n s end.
Definition countb (x : tok) (l : list tok) : nat := length (filter (beq x) l).
(** 669-672 *)
Definition class_part (prefix : tok) : tok :=
  let s := firstn (length prefix - 2) prefix in
  let s := firstn (match find_from (bs "<") s 0 with Some p => p | None => length s end) s in
  match rfind2 s with Some p => skipn (p + 2) s | None => s end.

Section Turn.
  Variable o : opts.
  (** parse_class, for the nested classes: is_class, prefix, targs *)
  Variable pc : bool -> tok -> tok -> C (list act).

  (** classdesc.cc:848-862 get_typedef_name; [None]: throw is_ptr *)
  Fixpoint tdname (fuel : nat) (ptr : bool) (i : inp) : pres bool :=
    match fuel with
    | O => PFuel
    | S f =>
        if teq (tk i) ";" then POk ptr i
        else pbind (if teq (tk i) "{" then pbind (gobble "{" "}" i) (fun _ i => POk tt i) else POk tt i)
               (fun _ i => let p := teq (tk1 i) "*" in pbind (next i) (fun _ i => tdname f p i))
    end.
  Definition get_typedef_name : C (option tok) :=
    ptr :- lift (fun i => tdname (pbound i) false i) ;;
    i :- get ;;
    cret (if (ptr || teq (tk1 i) "]")%bool then None else Some (tk1 i)).
  (** classdesc.cc:894-900 echo of an anonymous struct *)
  Fixpoint td_echo (fuel : nat) (nlvl : Z) (acc : list tok) (i : inp) : pres (list tok) :=
    match fuel with
    | O => PFuel
    | S f =>
        if (teq (tk i) "}" && (nlvl <=? 0)%Z)%bool then POk acc i
        else pbind (next i) (fun _ i =>
               let n := if teq (tk i) "{" then (nlvl + 1)%Z else nlvl in
               let n := if teq (tk i) "}" then (n - 1)%Z else n in
               td_echo f n (acc ++ [tk i]) i)
    end.
  (** sprintf("___ecotmp%-10d") *)
  Definition tmpname (n : N) : tok := let d := dec n in bs "___ecotmp" ++ d ++ repeat " "%char (10 - length d).
  Definition fresh_name : C tok := fun g i => COk (tmpname (g_cnt g)) g i.
  (** classdesc.cc:864-945 parse_typedef *)
  Definition parse_typedef (prefix : tok) : C unit :=
    nxt ;-
    mark :- get ;;
    if (teq (tk mark) "struct" || teq (tk mark) "class")%bool then
      let is_class := teq (tk mark) "class" in
      nxt ;-
      i :- get ;;
      let structname := if idt (tk i) then tk i else [] in
      skip_set ";:{" ;-
      i :- get ;;
      if teq (tk i) ";" then upd (add_type (false, structname))
      else
        nm :- get_typedef_name ;;
        name :- match nm with
                | Some n => cret (prefix ++ n)
                | None =>
                    put mark ;- nxt ;-
                    i :- get ;;
                    if idt (tk i) then cret (tk i)
                    else
                      name :- fresh_name ;;
                      upd inc_cnt ;-
                      put mark ;-
                      body :- lift (fun i => td_echo (pbound i) 0 [] i) ;;
                      upd (add_out ([bs "#ifndef CLASSDESC_TYPENAME_" ++ name; bs "#define CLASSDESC_TYPENAME_" ++ name;
                                     tk mark ++ bs " " ++ name ++ bs " "] ++ body ++ [bs ";"; bs "#endif"])) ;-
                      cret name
                end ;;
        put mark ;-
        skip_set ";:{" ;-
        let name := match structname with [] => name | _ => prefix ++ structname end in
        acts :- pc is_class (name ++ bs "::") [] ;;
        upd (add_type (true, structname)) ;-
        new_action name acts []
    else if teq (tk mark) "union" then
      nm :- get_typedef_name ;;
      i :- get ;;
      match nm with
      | Some n => new_action (prefix ++ n) [Act [] (bs "classdesc::is_array(),(char&)arg,1,sizeof(arg)") [] false false] []
      | None => new_action (prefix ++ tk1 i) [Act [] (bs "arg") [] false false] []
      end
    else skip_tok ";".

  (** classdesc.cc:1022-1042 whether template arguments appear before a scope operator; [None]:
      pop_back of an empty vector *)
  Fixpoint seen_templ (l : list ascii) (st : list bool) : option bool :=
    match l with
    | [] => Some false
    | c :: l' =>
        if ceq c "<" then match st with [] => None | _ :: st => seen_templ l' (false :: true :: st) end
        else if ceq c ">" then match st with [] => None | _ :: st => seen_templ l' st end
        else if (ceq c ":" && starts (bs ":") l')%bool then
          match st with [] => None | b :: _ => if b then Some true else seen_templ l' st end
        else seen_templ l' st
    end.
  Fixpoint qualified (fuel : nat) (name : tok) (i : inp) : pres tok :=     (* 1007-1011 *)
    match fuel with
    | O => PFuel
    | S f => if teq (tk i) "::" then
               pbind (next i) (fun _ i => let name := name ++ bs "::" ++ tk i in
                 pbind (next i) (fun _ i => qualified f name i))
             else POk name i
    end.
  (** classdesc.cc:996-1049 assign_class_action *)
  Definition assign_class_action (prefix targs classargs : tok) (is_private : bool) : C unit :=
    i :- get ;;
    let classtok := tk1 i ++ [" "%char] in
    let name := prefix ++ tk i in
    nxt ;-
    i :- get ;;
    name :- (if teq (tk i) "<" then t :- lift get_template_args ;; cret (name ++ t)
             else t :- opt (extract_targs classargs) ;; cret (name ++ t)) ;;
    name :- lift (fun i => qualified (pbound i) name i) ;;
    i :- get ;;
    if strchr ":{" (first (tk i)) then
      acts :- pc (teq classtok "class ") (name ++ bs "::") targs ;;
      (if (negb is_private && negb (has_lt prefix))%bool then
         s :- opt (seen_templ name [false]) ;;
         when (negb s) (new_action (classtok ++ name) acts targs)
       else cret tt) ;-
      upd (add_type (true, name))
    else upd (add_type (false, name)).

  Variable prefix targs : tok.
  Inductive flow := Go (l : loc) | Cont (l : loc).
  (** [continue] leaves the turn *)
  Definition fbind (m : C flow) (k : loc -> C flow) : C flow :=
    f :- m ;; match f with Go l => k l | Cont l => cret (Cont l) end.

  (** 492-500 access labels *)
  Definition t_label (l : loc) : C flow :=
    i :- get ;;
    if (teq (tk i) "private" || teq (tk i) "protected" || teq (tk i) "public")%bool then
      let p := negb (teq (tk i) "public") in
      gobb "" ":" ;- cret (Cont (w_priv p (respect_private o && p) l))
    else cret (Go l).
  (** 502-520 *)
  Definition t_typedef (l : loc) : C flow :=
    mark :- get ;;
    if teq (tk mark) "typedef" then
      lift (fun i => td_skip (pbound i) i) ;-
      i :- get ;;
      when (idt (tk1 i) && negb (l_priv l)) (upd (add_nested (prefix, tk1 i))) ;-
      put mark ;- parse_typedef prefix ;- skip_tok ";" ;- cret (Cont l)
    else cret (Go l).
  (** 521-532 *)
  Definition t_template (l : loc) : C flow :=
    i :- get ;;
    if teq (tk i) "template" then
      nxt ;- t :- lift get_template_args ;;
      i :- get ;;
      let t := if (negb (teq (tk i) "class" || teq (tk i) "struct") || teq t "< > ")%bool then [] else t in
      cret (Go (w_targs1 t (w_templ true l)))
    else cret (Go l).
  (** 533-544 *)
  Definition t_using (l : loc) : C flow :=
    i :- get ;;
    if teq (tk i) "using" then
      skip_tok ";" ;- i :- get ;; cret (Cont (w_using (l_using l ++ [bs "." ++ tk1 i]) l))
    else cret (Go l).
  (** substr(0,find('>')) and substr(1,find('>')) *)
  Definition pos_gt (s : tok) : nat := match find_from (bs ">") s 0 with Some p => p | None => length s end.
  Definition merge_targs (t t1 : tok) : tok :=
    match t, t1 with
    | _ :: _, _ :: _ => firstn (pos_gt t) t ++ bs "," ++ firstn (pos_gt t1) (skipn 1 t1)
    | _, _ => t ++ t1
    end.
  (** 545-579 *)
  Definition t_class (l : loc) : C flow :=
    i :- get ;;
    if (teq (tk i) "class" || teq (tk i) "struct")%bool then
      nxt ;-
      i :- get ;;
      when (negb (l_priv l) && negb (l_templ l)) (upd (add_nested (prefix, tk i))) ;-
      when (negb (beq targs [])) (put (Inp (tk2 i) (bs "typename") (tk i) (more i))) ;-
      (if idt (tk i) then assign_class_action prefix (merge_targs targs (l_targs1 l)) (l_targs1 l) (l_priv l)
       else upd set_err) ;-
      cret (Cont (w_targs1 [] l))
    else cret (Go l).
  (** 580-590 *)
  Definition t_enum (l : loc) : C flow :=
    i :- get ;;
    if teq (tk i) "enum" then
      nxt ;-
      i :- get ;;
      (if (negb (l_priv l) && idt (tk i))%bool then assign_enum_action o prefix
       else gobb "" "}" ;- cret tt) ;-
      cret (Go l)
    else cret (Go l).
  (** 594-604 *)
  Definition t_union (l : loc) : C flow :=
    i :- get ;;
    if (teq (tk1 i) "union" && teq (tk i) "{")%bool then
      gobb "{" "}" ;- skip_tok ";" ;-
      i :- get ;;
      let n := tk1 i in
      cret (Cont (if idt n then register_class n n (bs "classdesc::is_array(),(char&)(arg." ++ n ++ bs "),1,sizeof(arg." ++ n ++ bs ")") l else l))
    else cret (Go l).
  (** 607-624 *)
  Definition t_scalar (l : loc) : C flow :=
    i :- get ;;
    if (strchr "{;,:=" (first (tk i)) && negb (teq (tk i) "::"))%bool then
      let n := tk1 i in
      let l := if idt n then
                 if (use_mbr o && negb (teq (tk2 i) "&"))%bool then register_class n (bs "arg") (bs "&" ++ prefix ++ n) l
                 else register_class n [] (bs "arg." ++ n) l
               else l in
      when (ceq (first (tk i)) "{") (gobb "{" "}" ;- cret tt) ;-
      skip_set ";," ;- cret (Go l)
    else cret (Go l).
  (** 627-639 *)
  Definition t_operator (l : loc) : C flow :=
    i :- get ;;
    if teq (tk i) "operator" then
      nxt ;- i :- get ;;
      when (teq (tk i) "()") nxt ;-
      skip_paren ;-
      i :- get ;;
      (if teq (tk i) "()" then nxt else gobb "(" ")" ;- cret tt) ;-
      skip_set "{;" ;- cret (Go (w_static false l))
    else cret (Go l).
  (** 642-650 *)
  Definition t_flags (l : loc) : C flow :=
    i :- get ;;
    when (teq (tk i) "alignas") (nxt ;- gobb "(" ")" ;- cret tt) ;-
    i :- get ;;
    let l := if teq (tk i) "static" then w_static true l else l in
    let l := if teq (tk i) "const" then w_const true l else l in
    when (teq (tk i) "friend") (skip_tok ";") ;- cret (Go l).
  (** 652-685 the arguments; the result: memname, argList *)
  Definition fn_args (memname : tok) : C (tok * tok) :=
    i :- get ;;
    if teq (tk i) "()" then cret (memname, [])
    else
      nxt ;-
      i :- get ;;
      al :- (if idt (tk i) then
               nxt ;- i :- get ;;
               if teq (tk i) "::" then nxt ;- cret (tk1 i) else cret []
             else cret []) ;;
      i :- get ;;
      if (teq (tk i) "*" && (teq (tk1 i) "(" || teq (tk1 i) "::"))%bool then
        nxt ;- i :- get ;;
        gobb "(" ")" ;- skip_paren ;- gobb "(" ")" ;- cret (tk i, al)
      else if negb (teq (tk i) ")") then a :- gobb "(" ")" ;; cret (memname, al ++ a)
      else cret (memname, al ++ tk1 i).
  (** 652-752 *)
  Definition t_function (l : loc) : C flow :=
    i :- get ;;
    if ceq (first (tk i)) "(" then
      let is_destr := teq (tk2 i) "~" in
      ma :- fn_args (tk1 i) ;;
      let '(mn, al) := ma in
      cd :- lift (fun i => fn_tail (pbound i) false false i) ;;
      let '(isc, del) := cd in
      l :- (if idt mn then
              let l := w_num (l_num l ++ [bs "." ++ mn]) l in
              let sp := class_part prefix in
              let ty := if (beq mn sp && negb is_destr)%bool then TCtor
                        else if r_static l then TStatic else if isc then TConst else TNone in
              let ctor := match ty with TCtor => true | _ => false end in
              if ((negb ctor || overloading o) && negb is_destr && negb (l_templ l) && negb del
                  && negb (teq mn "CLASSDESC_ACCESS") && negb (teq mn "CLASSDESC_ACCESS_TEMPLATE"))%bool then
                let tmp := bs "TmpMemPtr_" ++ mn ++ dec (N.of_nat (countb (bs "." ++ mn) (l_num l))) in
                let action := (if ctor then bs "classdesc::is_constructor()," else [])
                              ++ (if overloading o then tmp else bs "&" ++ prefix ++ mn) in
                let al := strip_defaults al 0 true in
                ra :- (if has_lt prefix then
                         let full := firstn (length prefix - 2) prefix in
                         r :- opt (replaceShornTypes (l_ret l) sp full) ;;
                         a :- opt (replaceShornTypes al sp full) ;; cret (r, a)
                       else cret (l_ret l, al)) ;;
                let '(r, a) := ra in
                when (overloading o && negb (r_priv l)) (upd (add_over (prefix, Sig tmp r a prefix mn ty))) ;-
                let l := w_ret r l in
                cret (register_class mn (if r_static l then [] else bs "arg") action l)
              else cret l
            else cret l) ;;
      cret (Go (w_templ false (w_const false (w_static false l))))
    else cret (Go l).
  (** 755-787 *)
  Definition t_array (l : loc) : C flow :=
    i :- get ;;
    if teq (tk i) "[" then
      let n := tk1 i in
      da :- lift (fun i => arr_dims (pbound i) 0 (bs ",") i) ;;
      let '(d, a2) := da in
      let action := bs "classdesc::is_array(),arg." ++ n ++ repeat_str d (bs "[0]") ++ bs "," ++ dec (N.of_nat d) ++ a2 in
      cret (Go (register_class n n (firstn (length action - 1) action) l))
    else cret (Go l).
  (** 789-790 *)
  Definition t_brace (l : loc) : C flow :=
    i :- get ;; when (teq (tk i) "{") (gobb "{" "}" ;- cret tt) ;- cret (Go l).
  (** 793-801 *)
  Definition t_return (l : loc) : C flow :=
    i :- get ;;
    if teq (tk i) "<" then t :- gobb "<" ">" ;; cret (Go (w_ret (l_ret l ++ bs " " ++ t) l))
    else if (strchr ":;{}()" (first (tk1 i)) && negb (teq (tk1 i) "::"))%bool then cret (Go (w_ret [] l))
    else if negb (teq (tk1 i) "virtual" || teq (tk1 i) "static" || teq (tk1 i) "inline")
    then cret (Go (w_ret (l_ret l ++ bs " " ++ tk1 i) l))
    else cret (Go l).

  Definition stages : list (loc -> C flow) :=
    [t_label; t_typedef; t_template; t_using; t_class; t_enum; t_union; t_scalar; t_operator;
     t_flags; t_function; t_array; t_brace; t_return].
  (** one turn of the loop 465-802 *)
  Fixpoint run_stages (ss : list (loc -> C flow)) (l : loc) : C flow :=
    match ss with [] => cret (Go l) | s :: ss => fbind (s l) (run_stages ss) end.
  Definition turn (l : loc) : C flow := run_stages stages l.
  Definition loc_of (f : flow) : loc := match f with Go l | Cont l => l end.
  (** 465 the loop *)
  Fixpoint members (fuel : nat) (l : loc) : C loc :=
    match fuel with
    | O => fun _ _ => CFuel
    | S f =>
        nxt ;- i :- get ;;
        if teq (tk i) "}" then cret l else x :- turn l ;; members f (loc_of x)
    end.
End Turn.

(** 804-821 *)
Definition prune (o : opts) (l : loc) : list act :=
  if overloading o then l_acts l
  else filter (fun a => (negb (existsb (beq (a_name a)) (l_using l)) && (countb (a_name a) (l_num l) <=? 1)%nat)%bool) (l_acts l).
(** classdesc.cc:348-821 parse_class; the fuel bounds the depth of nesting *)
Fixpoint parse_class (o : opts) (fuel : nat) (is_class : bool) (prefix targs : tok) : C (list act) :=
  match fuel with
  | O => fun _ _ => CFuel
  | S f =>
      ap :- lift (fun i => bases o is_class targs (pbound i) [] is_class [] i) ;;
      let '(acts, pr) := ap in
      i :- get ;;
      l :- members o (parse_class o f) prefix targs (pbound i)
             (Loc acts false pr false false (respect_private o && is_class) [] [] [] []) ;;
      cret (prune o l)
  end.

(** ** main, classdesc.cc:1250-1355 *)
(** classdesc.cc:1055-1059 rm_space *)
Definition rm_space (s : tok) : tok := filter (fun c => negb (ceq c " ")) s.
(** 1255-1264; [None]: substr throws std::out_of_range, which nothing catches *)
Definition prag_sub (k : pkind) (p : string) (t : tok) : option (list (pkind * tok)) :=
  if starts (bs p) t then
    if (length t <? S (length (bs p)))%nat then None else Some [(k, rm_space (skipn (S (length (bs p))) t))]
  else Some [].
Definition prag_of (t : tok) : option (list (pkind * tok)) :=
  match prag_sub POmit "#pragma omit" t, prag_sub PTree "#pragma treenode" t, prag_sub PGraph "#pragma graphnode" t with
  | Some a, Some b, Some c => Some (a ++ b ++ c)
  | _, _, _ => None
  end.
Section CMain.
  Variable o : opts.
  Definition pcls (is_class : bool) (prefix targs : tok) : C (list act) :=
    fun g i => parse_class o (pbound i) is_class prefix targs g i.
  (** 1270-1313 using, namespaces; [marks] as in Parse_Model *)
  Definition m_namespace (marks : list nat) : C (list nat) :=
    i :- get ;;
    when (teq (tk i) "using") (skip_tok ";") ;-
    i :- get ;;
    ns :- get_ns ;;
    marks :- match marks with
             | m :: ms => if (length (more i) <? m)%nat
                          then ns :- opt (pop_name ns) ;; upd (set_ns ns) ;- cret ms else cret marks
             | [] => cret []
             end ;;
    ns :- get_ns ;;
    nm :- lift (enter ns marks) ;;
    upd (set_ns (fst nm)) ;- cret (snd nm).
  (** 1315-1353; the result is targs *)
  Definition m_class (targs : tok) : C tok :=
    i :- get ;;
    if (teq (tk i) "class" || teq (tk i) "struct")%bool then
      nxt ;- i :- get ;; ns :- get_ns ;;
      when (idt (tk i)) (assign_class_action pcls ns targs targs false) ;- cret []
    else cret targs.
  Definition m_enum : C unit :=
    i :- get ;;
    if teq (tk i) "enum" then
      nxt ;- i :- get ;; ns :- get_ns ;;
      (if idt (tk i) then assign_enum_action o ns else gobb "{" "}" ;- cret tt)
    else cret tt.
  Definition m_decl (targs : tok) : C tok :=
    i :- get ;;
    when (teq (tk i) "typedef") (parse_typedef pcls []) ;-
    i :- get ;;
    r :- (if teq (tk i) "template" then
            nxt ;- i :- get ;;
            if negb (teq (tk i) "<") then cret (targs, true)
            else
              t :- lift get_template_args ;;
              i :- get ;;
              let t := if (negb (teq (tk i) "class" || teq (tk i) "struct") || teq t "< > ")%bool then [] else t in
              when (teq (tk i) "using") (skip_tok ";") ;- cret (t, false)
          else cret (targs, false)) ;;
    let '(targs, cont) := r in
    if cont then cret targs
    else
      targs :- m_class targs ;;
      m_enum ;-
      i :- get ;;
      when (teq (tk i) "(") (gobb "(" ")" ;- cret tt) ;- cret targs.
  (** 1252-1355: the only way out is the exception *)
  Fixpoint mloop (fuel : nat) (targs : tok) (marks : list nat) : C unit :=
    match fuel with
    | O => fun _ _ => CFuel
    | S f =>
        nxt ;- i :- get ;;
        if starts (bs "#pragma") (tk i) then es :- opt (prag_of (tk i)) ;; upd (add_prag es) ;- mloop f targs marks
        else marks :- m_namespace marks ;; targs :- m_decl targs ;; mloop f targs marks
    end.
  Definition generate (ts : list tok) : cres unit := mloop (S (length ts)) [] [] g0 (Inp [] [] [] ts).
End CMain.

(** * The output of the descriptor generator: main after the parsing, action_t, MemberSig,
      printNestedTypes and the options, classdesc.cc

    A text is a list of lines without their newlines: every printf of the code ends a line, or is
    followed by what ends it.  [bf] stands for the header files name_base.h found on the include
    path, [[]] for none (a file without any omit pragma does the same).  fopen is taken to succeed
    for the files of -workdir. *)
From Verif Require Import Base SMap Dec Desc_Model Tok_Model Parse_Model ClassParse_Model.

(** ** Names *)
(** classdesc.cc:1050-1051 leadeq *)
Definition leadeq (x : tok) (y : string) : bool := starts (bs y) x.
(** classdesc.cc:1096-1104 type_qualifier *)
Definition type_qualifier (t : tok) : tok :=
  if leadeq t "class" then bs "class"
  else if leadeq t "struct" then bs "struct"
  else if leadeq t "enum class" then bs "enum class"
  else if leadeq t "enum" then bs "enum"
  else if leadeq t "typename" then bs "typename"
  else [].
(** classdesc.cc:1106-1117 without_type_qualifier *)
Definition without_type_qualifier (t : tok) : tok :=
  match skipn (length (type_qualifier t)) t with
  | c :: l => if ceq c " " then l else c :: l
  | [] => []
  end.
(** classdesc.cc:1081-1094 GuardMacro; 1399-1401 and 1628-1632 do the same *)
Definition macro (s : tok) : tok := map (fun c => if isalnum c then c else "_"%char) s.

(** position of the first occurrence *)
Definition idx (s : string) (l : tok) : option nat := find_from (bs s) l 0.
Definition has (s : string) (l : tok) : bool := match idx s l with Some _ => true | None => false end.

(** ** classdesc.cc:78-135 the names of the template arguments, tnTempl *)
Fixpoint dropw (p : ascii -> bool) (l : tok) : tok :=
  match l with [] => [] | c :: l' => if p c then dropw p l' else l end.
Definition blank (c : ascii) : bool := (ceq c " " || ceq c "009")%bool.
(** 112-127 the name of a parameter: what is taken, and what is left *)
Fixpoint tn_name (l : tok) (braces : Z) : tok * tok :=
  match l with
  | [] => ([], [])
  | c :: l' =>
      if ceq c "<" then let '(a, r) := tn_name l' (braces + 1)%Z in (c :: a, r)
      else if ceq c ">" then
        if (braces - 1 =? 0)%Z then ([], l) else let '(a, r) := tn_name l' (braces - 1)%Z in (c :: a, r)
      else if (isident c || (0 <? braces)%Z)%bool then let '(a, r) := tn_name l' braces in (c :: a, r)
      else ([], l)
  end.
(** 92-133; the position i is kept as the rest of the string from i on.  [None]: substr throws
    std::out_of_range *)
Fixpoint tn_loop (fuel : nat) (l : tok) : option tok :=
  match fuel with
  | O => Some []
  | S f =>
      match l with
      | [] => Some []
      | _ =>
          let j := match idx "class" l with Some j => j | None => length l end in
          let j := match idx "typename" l with Some jj => Nat.min j jj | None => j end in
          let pre := firstn j l in
          match dropw (fun c => negb (blank c || ceq c ".")) (skipn j l) with
          | [] => Some pre
          | l1 =>
              match dropw blank l1 with
              | [] => None
              | l2 =>
                  match dropw (fun c => blank c || ceq c ".")%bool l2 with
                  | [] => Some pre
                  | l3 =>
                      let '(nm, r) := tn_name l3 0 in
                      match tn_loop f r with
                      | None => None
                      | Some t =>
                          Some (pre ++ (if starts (bs "...") l2 then bs """+varTn<" ++ nm ++ bs "...>()+"""
                                        else bs """+typeName<" ++ nm ++ bs ">()+""") ++ t)
                      end
                  end
              end
          end
      end
  end.
Definition tnTempl (templ : tok) : option tok :=
  if has "template" templ then Some templ else tn_loop (length templ) templ.

(** ** classdesc.cc:187-228 the variables for overloaded members *)
(** classdesc.cc:53-60 trimWS *)
Definition trimWS (s : tok) : tok := rev (dropw isspace (rev (dropw isspace s))).
(** classdesc.cc:187-204 insertTypename *)
Definition insertTypename (type : tok) : tok :=
  let type := map (fun c => if isspace c then " "%char else c) type in
  if (negb (has "::" type) || has "typename " type)%bool then type
  else
    let type := trimWS type in
    if starts (bs "const ") type then bs "const typename " ++ skipn 6 type else bs "typename " ++ type.
(** classdesc.cc:206-228 MemberSig::declare *)
Definition declare (s : msig) : tok :=
  match s_ty s with
  | TNone => insertTypename (s_ret s) ++ bs "(" ++ s_prefix s ++ bs "*" ++ s_decl s ++ bs ")(" ++ s_args s ++ bs ")=&" ++ s_prefix s ++ s_name s ++ bs ";"
  | TConst => insertTypename (s_ret s) ++ bs "(" ++ s_prefix s ++ bs "*" ++ s_decl s ++ bs ")(" ++ s_args s ++ bs ") const=&" ++ s_prefix s ++ s_name s ++ bs ";"
  | TStatic => insertTypename (s_ret s) ++ bs "(*" ++ s_decl s ++ bs ")(" ++ s_args s ++ bs ")=&" ++ s_prefix s ++ s_name s ++ bs ";"
  | TCtor => bs "void (*" ++ s_decl s ++ bs ")(" ++ s_args s ++ bs ")=0;"
  end.

(** ** The options, classdesc.cc:1140-1239 *)
Record conf := Conf { c_opts : opts; c_workdir : tok; c_include : tok; c_def : bool; c_objc : bool; c_qt : bool;
                      c_path : list tok; c_input : tok }.
Definition conf0 : conf := Conf (Opts false false false false false) [] [] true false false [bs "."] (bs "stdin").
Definition k_opts o c := Conf o (c_workdir c) (c_include c) (c_def c) (c_objc c) (c_qt c) (c_path c) (c_input c).
Definition k_workdir w c := Conf (c_opts c) w (c_include c) (c_def c) (c_objc c) (c_qt c) (c_path c) (c_input c).
Definition k_include w c := Conf (c_opts c) (c_workdir c) w (c_def c) (c_objc c) (c_qt c) (c_path c) (c_input c).
Definition k_def w c := Conf (c_opts c) (c_workdir c) (c_include c) w (c_objc c) (c_qt c) (c_path c) (c_input c).
Definition k_objc w c := Conf (c_opts c) (c_workdir c) (c_include c) (c_def c) w (c_qt c) (c_path c) (c_input c).
Definition k_qt w c := Conf (c_opts c) (c_workdir c) (c_include c) (c_def c) (c_objc c) w (c_path c) (c_input c).
Definition k_path w c := Conf (c_opts c) (c_workdir c) (c_include c) (c_def c) (c_objc c) (c_qt c) (c_path c ++ [w]) (c_input c).
Definition k_input w c := Conf (c_opts c) (c_workdir c) (c_include c) (c_def c) (c_objc c) (c_qt c) (c_path c) w.
(** Opts: respect_private use_mbr onBase overloading typeNm *)
Definition k_over c := let o := c_opts c in k_opts (Opts (respect_private o) (use_mbr o) (onBase o) true (typeNm o)) c.
Definition k_priv c := let o := c_opts c in k_opts (Opts true (use_mbr o) (onBase o) (overloading o) (typeNm o)) c.
Definition k_mbr c := let o := c_opts c in k_opts (Opts (respect_private o) true (onBase o) (overloading o) (typeNm o)) c.
Definition k_tn c := let o := c_opts c in k_opts (Opts (respect_private o) (use_mbr o) (onBase o) (overloading o) true) c.
Definition k_base c := let o := c_opts c in k_opts (Opts (respect_private o) (use_mbr o) true (overloading o) (typeNm o)) c.
Inductive optk := Flag (f : conf -> conf) | WithArg (f : tok -> conf -> conf) | Version.
(** the tests of one turn of the loop, in order *)
Definition optable : list (tok * optk) :=
  [(bs "-workdir", WithArg (fun a => k_workdir (a ++ bs "/"))); (bs "-objc", Flag (k_objc true)); (bs "-overload", Flag k_over);
   (bs "-include", WithArg k_include); (bs "-nodef", Flag (k_def false)); (bs "-respect_private", Flag k_priv);
   (bs "-use_mbr_pointers", Flag k_mbr); (bs "-I", WithArg k_path); (bs "-typeName", Flag k_tn); (bs "-onbase", Flag k_base);
   (bs "-i", WithArg k_input); (bs "-v", Version); (bs "-qt", Flag (k_qt true))].
Inductive ores :=
| ORun (c : conf) (names : list tok)      (* on with the descriptors named *)
| OExit (code : Z) (said : tok)           (* return from main *)
| OLoop.                                  (* the loop never ends *)
(** one turn of the loop; [args] is argv[1] onwards *)
Fixpoint turn_opts (tab : list (tok * optk)) (c : conf) (args : list tok) : ores :=
  match tab with
  | [] => ORun c args
  | (n, k) :: tab =>
      match args with
      | a :: rest =>
          if beq a n then
            match k with
            | Flag f => turn_opts tab (f c) rest
            | WithArg f => match rest with x :: rest => turn_opts tab (f x c) rest | [] => OExit 1 (bs "option argument missing") end
            | Version => OExit 0 (bs "Version: ")
            end
          else turn_opts tab c args
      | [] => ORun c []
      end
  end.
(** the loop; a turn that takes nothing is repeated for ever *)
Fixpoint loop_opts (fuel : nat) (c : conf) (args : list tok) : ores :=
  match fuel with
  | O => OLoop
  | S f =>
      match args with
      | a :: _ =>
          if ceq (first a) "-" then
            match turn_opts optable c args with
            | ORun c' args' => if (length args' <? length args)%nat then loop_opts f c' args' else OLoop
            | r => r
            end
          else ORun c args
      | [] => ORun c []
      end
  end.
Definition options (args : list tok) : ores :=
  match args with
  | [] => OExit 0 (bs "usage: ")                     (* 1145-1149 *)
  | _ => loop_opts (S (length args)) conf0 args
  end.

(** ** Output *)
(** classdesc.cc:1073-1079 PrintNameSpace *)
Definition in_ns (ns : tok) (body : list tok) : list tok := (bs "namespace " ++ ns ++ bs " {") :: body ++ [bs "}"].

(** classdesc.cc:168-184 type_defined, from the calls recorded *)
Definition last_name (n : tok) : tok := match rfind2 n with Some p => skipn (p + 2) n | None => n end.
Definition type_step (m : list (tok * bool)) (c : bool * tok) : list (tok * bool) :=
  if fst c then mset bcmp (snd c) true m
  else
    let n := last_name (snd c) in
    if has_lt n then m
    else match mfind bcmp n m with Some true => m | _ => mset bcmp n false m end.
Definition type_map (l : list (bool * tok)) : list (tok * bool) := fold_left type_step l [].
(** 1362-1367 *)
Definition dummies (l : list (bool * tok)) : list tok :=
  map (fun p => bs "class " ++ fst p ++ bs " {};") (filter (fun p => negb (snd p)) (type_map l)).

(** classdesc.cc:1061-1071 output_treenode_or_graphnode *)
Definition node_lines (k : tok) (a : action) (node : string) : list tok :=
  [bs "template " ++ (match x_templ a with [] => bs "<>" | t => t end);
   bs "struct access_" ++ k ++ bs "< " ++ x_type a ++ bs "* >"; bs "{";
   bs "  template<class _CD_ARG_TYPE>";
   bs "  void operator()(classdesc::" ++ k ++ bs "_t& targ, const classdesc::string& desc, _CD_ARG_TYPE& arg)";
   bs "{" ++ k ++ bs "(targ,desc,classdesc::" ++ bs node ++ bs ",arg);}"; bs "};"; []].

(** nested[key], enum_keys[key], overloadTempVarDecls[key] *)
Definition at_key {A} (key : tok) (l : list (tok * A)) : list A := map snd (filter (fun p => beq (fst p) key) l).
(** classdesc.cc:1119-1138 printNestedTypes *)
Fixpoint nest_level (kw scope : tok) (names avoid : list tok) : list tok * list tok :=
  match names with
  | [] => ([], avoid)
  | n :: names =>
      let '(out, av) := nest_level kw scope names (avoid ++ [n]) in
      ((if existsb (beq n) avoid then [] else [bs "typedef " ++ kw ++ bs " " ++ scope ++ bs "::" ++ n ++ bs " " ++ n ++ bs ";"]) ++ out, av)
  end.
Fixpoint nest_lines (fuel : nat) (nested : list (tok * tok)) (scope : tok) (templ : bool) (avoid : list tok) : list tok :=
  match fuel with
  | O => []
  | S f =>
      let '(out, av) := nest_level (if templ then bs "typename" else []) scope (at_key (scope ++ bs "::") nested) avoid in
      out ++ match rfind2 scope with
             | Some p => let scope := firstn p scope in
                         if teq scope "::" then [] else nest_lines f nested scope false av
             | None => []
             end
  end.
Definition printNestedTypes (nested : list (tok * tok)) (scope : tok) (templ : bool) : list tok :=
  nest_lines (S (length scope)) nested scope templ [].

(** 1579-1591 the calls of operator() *)
Definition op_line (k : tok) (a : act) : list tok :=
  let f := k ++ (if a_base a then bs "_onbase" else []) in
  if (negb (beq (a_member a) []) && negb (a_base a) && negb (leadeq (a_action a) "classdesc::is_array"))%bool then
    [bs "::" ++ f ++ bs "(targ,desc+""" ++ a_name a ++ bs """," ++ a_member a ++ bs "," ++ a_action a ++ bs ");"]
  else if has "classdesc::is_constructor" (a_action a) then []
  else [bs "::" ++ f ++ bs "(targ,desc+""" ++ a_name a ++ bs """," ++ a_action a ++ bs ");"].
(** 1601-1623 the calls of type(); [find("::")] as a condition is false only for position 0 *)
Definition type_line (mbr : bool) (k targ : tok) (a : act) : list tok :=
  let t := bs "::" ++ k ++ bs "_type<_CD_TYPE," ++ targ ++ bs " >(targ,desc+""" ++ a_name a ++ bs """," in
  if a_base a then [bs "::" ++ k ++ bs "<_CD_TYPE," ++ a_member a ++ bs " >(targ,desc+""" ++ a_name a ++ bs """);"]
  else if ((ceq (first (a_action a)) "&" && match idx "::" (a_action a) with Some O => false | _ => true end)
           || leadeq (a_action a) "TmpMemPtr_" || leadeq (a_action a) "classdesc::is_constructor")%bool
  then [t ++ a_action a ++ bs ");"]
  else if (leadeq (a_action a) "classdesc::is_array" && negb (beq (a_member a) []))%bool
  then [t ++ bs "&" ++ without_type_qualifier targ ++ bs "::" ++ a_member a ++ bs ");"]
  else if (leadeq (a_action a) "classdesc::is_const_static" && mbr)%bool then [t ++ a_action a ++ bs ");"]
  else [].
Definition using_ns (ns : tok) : list tok := match ns with [] => [] | _ => [bs "using namespace " ++ ns ++ bs ";"] end.
Definition templ_text (a : action) : tok := match x_templ a with [] => bs "<>" | t => t end.
Definition templated (a : action) : bool := match x_templ a with [] => false | _ => true end.
(** 1556-1625 in line on the standard output *)
Definition type_arg (q n : tok) : tok := (if teq q "enum class" then bs "enum" else q) ++ bs " " ++ n.
Definition inline_lines (o : opts) (g : glob) (k : tok) (a : action) : list tok :=
  let n := without_type_qualifier (x_type a) in
  let targ := type_arg (type_qualifier (x_type a)) n in
  let decls := using_ns (x_ns a) ++ printNestedTypes (g_nested g) n (templated a) ++ map declare (at_key (n ++ bs "::") (g_over g)) in
  [bs "template " ++ templ_text a ++ bs " struct access_" ++ k ++ bs "< " ++ targ ++ bs " > {";
   bs "template <class _CD_ARG_TYPE>";
   bs "void operator()(classdesc::" ++ k ++ bs "_t& targ, const classdesc::string& desc,_CD_ARG_TYPE& arg)"; bs "{"]
  ++ decls ++ concat (map (op_line k) (x_acts a))
  ++ [bs "}"; bs "template <class _CD_TYPE>"; bs "void type(classdesc::" ++ k ++ bs "_t& targ, const classdesc::string& desc)"; bs "{"]
  ++ decls ++ concat (map (type_line (use_mbr o) k targ) (x_acts a)) ++ [bs "}"; bs "};"].

(** 1626-1708 -workdir: what goes to the standard output, and to the file *)
Definition work_targ (a : action) : tok := type_qualifier (x_type a) ++ bs " " ++ without_type_qualifier (x_type a).
Definition work_head (k : tok) (a : action) : list tok :=
  [bs "template " ++ templ_text a ++ bs " struct access_" ++ k ++ bs "< " ++ work_targ a ++ bs " > {"; bs "template <class _CD_ARG_TYPE>";
   bs "void operator()(classdesc::" ++ k ++ bs "_t& targ, const classdesc::string& desc,_CD_ARG_TYPE& arg);"; bs "};"].
(** 1669-1683; the position of the last blank *)
Fixpoint rfind_sp (l : tok) : option nat :=
  match l with
  | [] => None
  | c :: l' => match rfind_sp l' with Some n => Some (S n) | None => if ceq c " " then Some 0%nat else None end
  end.
Definition work_nested (nested : list (tok * tok)) (a : action) : list tok :=
  match rfind2 (x_type a) with
  | None => []
  | Some p =>
      let s := match rfind_sp (x_type a) with Some s => S s | None => 0%nat end in
      (* substr(s,p+2-s): the count is unsigned, so all of the rest when s is beyond p+2 *)
      let prefix := if (s <=? p + 2)%nat then firstn (p + 2 - s) (skipn s (x_type a)) else skipn s (x_type a) in
      map (fun n => bs "typedef " ++ (if templated a then bs "typename" else []) ++ bs " " ++ prefix ++ n ++ bs " " ++ n ++ bs ";") (at_key prefix nested)
  end.
Definition work_call (k : tok) (a : act) : tok :=
  bs "::" ++ k ++ (if a_base a then bs "_onbase" else []) ++ bs "(targ,desc+""" ++ a_name a ++ bs """," ++ a_action a ++ bs ");".
Definition work_body (g : glob) (k : tok) (a : action) : list tok :=
  let head := bs "void classdesc_access::access_" ++ k ++ bs "< " ++ work_targ a ++ bs " >::operator()(classdesc::" ++ k ++ bs "_t& targ, const classdesc::string& desc," in
  [bs "template <class _CD_ARG_TYPE>"; head ++ bs "_CD_ARG_TYPE& arg)"; bs "{"] ++ using_ns (x_ns a) ++ work_nested (g_nested g) a
  ++ map (work_call k) (x_acts a)
  ++ [bs "};"; bs "template"; head ++ work_targ a ++ bs "& arg);"; bs "template"; head ++ bs "const " ++ work_targ a ++ bs "& arg);"; bs "#include <classdesc_epilogue.h>"].
(** 1628-1633 *)
Definition work_file (dir : tok) (a : action) : tok := dir ++ macro (x_type a) ++ bs ".cc".

(** 1507-1530 the name looked up in the tables; [j] is the position *)
Fixpoint plain_name (j : nat) (l : tok) (nangle : Z) (space : bool) : tok :=
  match l with
  | [] => []
  | c :: l' =>
      if ((j <? 2)%nat && ceq c ":")%bool then plain_name (S j) l' nangle space
      else
        let nangle := if ceq c "<" then (nangle + 1)%Z else nangle in
        let '(out, space) := if (nangle =? 0)%Z then if ceq c " " then ([], true) else ((if space then [" "%char] else []) ++ [c], false)
                             else ([], space) in
        out ++ plain_name (S j) l' (if ceq c ">" then (nangle - 1)%Z else nangle) space
  end.
(** 1476-1498 the omit pragmas of a header, by fscanf("#pragma omit %1023[^\n]") *)
Inductive sres := SEof | SNo (rest : tok) | SYes (name rest : tok).
Fixpoint lit (p l : tok) : sres :=
  match p, l with
  | [], _ => SYes [] l
  | _, [] => SEof
  | c :: p, d :: l' => if ceq c d then lit p l' else SNo l
  end.
Definition fscan (l : tok) : sres :=
  match lit (bs "#pragma") l with
  | SYes _ l =>
      match lit (bs "omit") (dropw isspace l) with
      | SYes _ l =>
          match dropw isspace l with
          | [] => SEof
          | l => let line := fix line n l := match n, l with
                                             | S n, c :: l' => if ceq c lf then ([], l) else let '(a, r) := line n l' in (c :: a, r)
                                             | _, _ => ([], l)
                                             end in
                 let '(a, r) := line 1023%nat l in SYes a r
          end
      | r => r
      end
  | r => r
  end.
Fixpoint omit_scan (fuel : nat) (l : tok) : list tok :=
  match fuel with
  | O => []
  | S f =>
      match fscan l with
      | SEof => []
      | SYes n r => rm_space n :: omit_scan f r
      | SNo r => omit_scan f (skipn 1 (dropw (fun c => negb (ceq c lf)) r))
      end
  end.
Definition omits_in (l : tok) : list tok := omit_scan (S (length l)) l.

Definition of_kind (k : pkind) (l : list (pkind * tok)) : list tok :=
  map snd (filter (fun p => match k, fst p with POmit, POmit | PTree, PTree | PGraph, PGraph => true | _, _ => false end) l).
(** the result: the standard output, the texts appended to files in order, the error code is set *)
Record out := Out { o_std : list tok; o_files : list (tok * list tok); o_err : bool }.
Definition oapp (a b : out) : out := Out (o_std a ++ o_std b) (o_files a ++ o_files b) (o_err a || o_err b)%bool.
Definition onil : out := Out [] [] false.

Section Output.
  Variable c : conf.
  Variable g : glob.
  Variable bf : tok -> tok.
  (** 1500-1709 one type for one descriptor; [hw]: header_written *)
  Definition one (omit : list tok) (k : tok) (a : action) (hw : list tok) : out * list tok :=
    let n := without_type_qualifier (x_type a) in
    let m := macro (bs "CLASSDESC_" ++ k ++ bs "_" ++ n) in
    let n1 := plain_name 0 n 0 false in
    let is_tree := existsb (beq n1) (of_kind PTree (g_prag g)) in
    let is_graph := existsb (beq n1) (of_kind PGraph (g_prag g)) in
    let err := (is_tree && is_graph)%bool in
    let open := [[]; bs "#ifndef " ++ m; bs "#define " ++ m] in
    if existsb (beq (k ++ n1)) omit then (Out (open ++ [[]; bs "#endif"]) [] err, hw)
    else
      let nodes := (if is_tree then node_lines k a "is_treenode()" else []) ++ (if is_graph then node_lines k a "is_graphnode()" else []) in
      if (beq (c_workdir c) [] || templated a)%bool then
        (Out (open ++ nodes ++ inline_lines (c_opts c) g k a ++ [[]; bs "#endif"]) [] err, hw)
      else
        let f := work_file (c_workdir c) a in
        let new := (negb (beq (c_include c) []) && negb (existsb (beq f) hw))%bool in
        (Out (open ++ nodes ++ work_head k a ++ [bs "#endif"])
             [(f, (if new then [bs "#include """ ++ c_include c ++ bs """"] else []) ++ [bs "#include """ ++ k ++ bs "_base.h"""] ++ work_body g k a)] err,
         if new then hw ++ [f] else hw).
  Fixpoint all_types (omit : list tok) (k : tok) (l : list action) (hw : list tok) : out * list tok :=
    match l with
    | [] => (onil, hw)
    | a :: l => let '(r, hw) := one omit k a hw in let '(rs, hw) := all_types omit k l hw in (oapp r rs, hw)
    end.
  (** 1474-1711; omit is never emptied *)
  Fixpoint all_actions (omit : list tok) (ks : list tok) (hw : list tok) : out :=
    match ks with
    | [] => onil
    | k :: ks =>
        let omit := omit ++ omits_in (bf k) in
        let '(r, hw) := all_types omit k (g_actions g) hw in oapp r (all_actions omit ks hw)
    end.

  (** 1386-1470 the type name database *)
  Definition key_lines (q : tok) (keys : list tok) : list tok :=
    let entry k := bs "  {""" ++ k ++ bs """,int(" ++ q ++ bs "::" ++ k ++ bs ")}" in
    match rev keys with [] => [] | l :: ks => map (fun k => entry k ++ bs ",") (rev ks) ++ [entry l] end.
  Definition enum_qual (type n : tok) : tok :=
    if leadeq type "enum class" then n else match rfind2 n with None => [] | Some p => firstn p n end.
  Definition enum_lines (type n : tok) : list tok :=
    let keys := at_key type (g_enums g) in
    in_ns (bs " ")
      ((match keys with
        | [] => []
        | _ =>
            [bs "template <> EnumKey enum_keysData< " ++ n ++ bs " >::keysData[]="; bs " {"]
            ++ key_lines (enum_qual type n) keys ++ [bs " };";
             bs "template <> EnumKeys< " ++ n ++ bs " > enum_keysData< " ++ n ++ bs " >::keys(enum_keysData< " ++ n ++ bs " >::keysData,sizeof(enum_keysData< "
             ++ n ++ bs " >::keysData)/sizeof(enum_keysData< " ++ n ++ bs " >::keysData[0]));"]
        end)
       ++ [bs "template <> int enumKey< " ++ n ++ bs " >(const std::string& x){return int(enum_keysData< " ++ n ++ bs " >::keys(x));}";
           bs "template <> std::string enumKey< " ++ n ++ bs " >(int x){return enum_keysData< " ++ n ++ bs " >::keys(x);}"]).
  Definition tn_lines (a : action) : option (list tok) :=
      match tnTempl (x_templ a) with
      | None => None
      | Some tn =>
        if teq (type_qualifier (x_type a)) "typename" then Some []
        else
          let n := without_type_qualifier (x_type a) in
          let m := macro (bs "CLASSDESC_TYPENAME_" ++ n) in
          Some ([bs "#ifndef " ++ m; bs "#define " ++ m]
                ++ in_ns (bs "classdesc")
                     ((if templated a then
                         [bs "template " ++ x_templ a ++ bs " struct tn< " ++ n ++ bs " >"; bs "{"; bs "static std::string name()";
                          bs "  {return """ ++ firstn (match idx "<" n with Some p => p | None => length n end) n ++ tn ++ bs """;}"; bs "};"]
                       else [bs "template <> inline std::string typeName< " ++ n ++ bs " >()"; bs "  {return """ ++ n ++ bs """;}"])
                      ++ (if leadeq (x_type a) "enum" then enum_lines (x_type a) n else []))
                ++ [bs "#endif"])
      end.
  (** the constructor of action_t throws when the action is recorded: nothing is printed then *)
  Fixpoint optcat (l : list (option (list tok))) : option (list tok) :=
    match l with
    | [] => Some []
    | None :: _ => None
    | Some x :: l => match optcat l with Some r => Some (x ++ r) | None => None end
    end.

  Definition warn_off : list tok :=
    [bs "#if defined(__GNUC__) && !defined(__ICC) && !defined(__clang__)"; bs "#pragma GCC diagnostic push";
     bs "#pragma GCC diagnostic ignored ""-Wunused-function"""; bs "#pragma GCC diagnostic ignored ""-Wunused-local-typedefs"""; bs "#endif"].
  Definition warn_on : list tok :=
    [bs "#if defined(__GNUC__) && !defined(__ICC) && !defined(__clang__)"; bs "#pragma GCC diagnostic pop"; bs "#endif"].
  (** 1354-1384 *)
  Definition head_lines (ks : list tok) : list tok :=
    [bs "#include ""classdesc.h"""; []] ++ warn_off ++ (if c_def c then dummies (g_types g) else [])
    ++ map (fun k => bs "#include """ ++ k ++ bs "_base.h""") ks
    ++ (match ks with
        | [] => []
        | _ => in_ns (bs "classdesc")
                 (concat (map (fun k => [bs "template <class C,class M>"; bs "void " ++ k ++ bs "_type(" ++ k ++ bs "_t&,const string&,M);"]) ks))
        end)
    ++ map (fun k => bs "using classdesc::" ++ k ++ bs "_type;") ks.
  (** all of the output; [None]: ended by an exception *)
  Definition output (ks : list tok) : option out :=
    match optcat (map tn_lines (g_actions g)) with
    | None => None
    | Some tn =>
        let r := all_actions (of_kind POmit (g_prag g)) ks [] in
        Some (Out (g_out g ++ head_lines ks ++ (if typeNm (c_opts c) then tn else []) ++ in_ns (bs "classdesc_access") (o_std r) ++ warn_on)
                  (o_files r) (g_err g || o_err r)%bool)
    end.
End Output.

(** the whole program on the text of a file *)
Inductive pres_ := PrOut (o : out) | PrAbort | PrExit (code : Z) (said : tok) | PrLoop.
Definition program (args : list tok) (tokens : list tok) (bf : list tok -> tok -> tok) : pres_ :=
  match options args with
  | OExit z s => PrExit z s
  | OLoop => PrLoop
  | ORun c ks =>
      match generate (c_opts c) tokens with
      | CEof g => match output c g (bf (c_path c)) ks with Some r => PrOut r | None => PrAbort end
      | _ => PrAbort
      end
  end.

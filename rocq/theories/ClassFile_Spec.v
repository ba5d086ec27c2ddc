(** * What the generator should record for a file of classes and enumerations in namespaces

    Continues ClassParse_Spec: nothing here refers to the parser; [tpl], the grammar of template
    parameters, is that of Parse_Props. *)
From Verif Require Import Base SMap Dec Parse_Props ClassParse_Spec.
Notation tok := (list ascii) (only parsing).

(** ** Base classes *)
(** the template arguments after a [<], up to the bracket that closes it: [d] brackets are open, and
    [>>] closes two *)
Inductive angled : nat -> list tok -> Prop :=
| an_end : angled 1 [bs ">"]
| an_end2 : angled 2 [bs ">>"]
| an_tok d t ts : t <> bs "<" -> t <> bs ">" -> t <> bs ">>" -> angled d ts -> angled d (t :: ts)
| an_open d ts : angled (S d) ts -> angled d (bs "<" :: ts)
| an_close d ts : angled (S d) ts -> angled (S (S d)) (bs ">" :: ts)
| an_close2 d ts : angled (S d) ts -> angled (S (S (S d))) (bs ">>" :: ts).
Inductive bpiece := BWord (t : tok) | BInst (t : tok) (ts : list tok).    (* A, ::, B<int>: ts ends with the closing bracket *)
Definition ptoks1 (p : bpiece) : list tok := match p with BWord t => [t] | BInst t ts => t :: bs "<" :: ts end.
Definition ptoks (ps : list bpiece) : list tok := concat (map ptoks1 ps).
Definition base_word (t : tok) : bool :=
  ((ident t || is t "::") && negb (is t "virtual" || is t "private" || is t "protected" || is t "public"))%bool.
Definition piece_ok (p : bpiece) : Prop :=
  match p with
  | BWord t => base_word t = true
  | BInst t ts => base_word t = true /\ angled 1 ts /\ ~ In (bs "{") ts /\ ~ In (bs "}") ts
  end.
(** template arguments are written with a space after each token, and another after an inner [>] or [>>] *)
Fixpoint args_text (ts : list tok) : tok :=
  match ts with
  | [] => []
  | u :: r => u ++ bs " " ++ (match r with [] => [] | _ => if (is u ">" || is u ">>")%bool then bs " " else [] end) ++ args_text r
  end.
Definition ptext1 (p : bpiece) : tok :=
  match p with BWord t => t | BInst t ts => t ++ bs "< " ++ args_text ts end.
Definition ptext (ps : list bpiece) : tok := concat (map ptext1 ps).
Record bspec := BSpec { b_v1 : bool; b_access : option access; b_v2 : bool; b_name : list bpiece }.
Definition vtok (b : bool) : list tok := if b then [bs "virtual"] else [].
Definition btoks1 (b : bspec) : list tok :=
  vtok (b_v1 b) ++ match b_access b with Some a => [acctok a] | None => [] end ++ vtok (b_v2 b) ++ ptoks (b_name b).
Definition btoks (bl : list bspec) : list tok :=
  match bl with [] => [] | b :: bl => bs ":" :: btoks1 b ++ concat (map (fun b => bs "," :: btoks1 b) bl) end.
Definition bspec_ok (b : bspec) : Prop := b_name b <> [] /\ Forall piece_ok (b_name b).
(** private by default in a class, public by default in a struct *)
Definition base_seen (respect is_class : bool) (b : bspec) : bool :=
  (negb respect || match b_access b with Some Public => true | Some _ => false | None => negb is_class end)%bool.
Definition base_names (respect is_class : bool) (bl : list bspec) : list tok :=
  map (fun b => ptext (b_name b)) (filter (base_seen respect is_class) bl).

(** ** Enumerations *)
Record enumdef := EnumDef {
  e_class : bool; e_name : tok; e_under : option (list tok);
  e_keys : list (tok * option (list tok)); e_last : tok * option (list tok); e_comma : bool }.
Definition keytoks (k : tok * option (list tok)) : list tok :=
  fst k :: match snd k with Some v => bs "=" :: v | None => [] end.
Definition enumtoks (e : enumdef) : list tok :=
  [bs "enum"] ++ (if e_class e then [bs "class"] else []) ++ [e_name e]
  ++ match e_under e with Some u => bs ":" :: u | None => [] end
  ++ bs "{" :: concat (map (fun k => keytoks k ++ [bs ","]) (e_keys e))
  ++ keytoks (e_last e) ++ (if e_comma e then [bs ","] else []) ++ [bs "}"; bs ";"].
Definition punct (t : tok) : bool := (is t ";" || is t "," || is t "=" || is t "}")%bool.
Definition key_ok (k : tok * option (list tok)) : Prop :=
  punct (fst k) = false /\ match snd k with Some v => v <> [] /\ ~ In (bs ",") v /\ ~ In (bs "}") v | None => True end.
Definition word (t : tok) : Prop := ident t = true /\ Forall (fun c => letter c = true \/ (48 <= nat_of_ascii c <= 57)%nat) t.
Definition enum_ok (e : enumdef) : Prop :=
  word (e_name e) /\ e_name e <> bs "class"
  /\ match e_under e with Some u => Forall (fun t => first_in ";{" t = false) u | None => True end
  /\ Forall key_ok (e_keys e) /\ key_ok (e_last e).
Definition enum_names (e : enumdef) : list tok := map fst (e_keys e) ++ [fst (e_last e)].

(** ** Files *)
Definition outside (t : tok) : bool :=
  negb (is t "typedef" || is t "template" || is t "class" || is t "struct" || is t "enum" || is t "using"
        || is t "namespace" || is t "(" || is t "{" || is t "}" || beq (firstn 7 t) (bs "#pragma"))%bool.
Definition kw (is_class : bool) : tok := if is_class then bs "class" else bs "struct".
(** what is recorded: the scope of a type is the namespace [ns] and the classes it is in, and [scope]
    ends with [::], like [ns] *)
Inductive event :=
| EvClass (is_class : bool) (ns scope name : tok) (bases : list tok) (members : list call)
| EvFwd (scope name : tok)                                  (* a class that has been declared *)
| EvKnown (scope name : tok)                                (* a class that has been defined, but is not described *)
| EvName (scope name : tok)                                 (* a name inside a class *)
| EvEnum (scoped : bool) (ns scope name : tok) (keys : list tok)
| EvPragma (kind name : tok)
(* a class template: its parameters, the arguments that name it, and its bases, with those that are named with typename *)
| EvTempl (is_class : bool) (ns name templ args : tok) (bases : list (bool * tok)) (members : list call)
(* a typedef of a structure or union that is defined in it; [tag]: what is recorded as defined *)
| EvTypedef (ns : tok) (tag : option tok) (name : tok) (bases : list tok) (members : list call).

(** ** Everything a class may contain *)
Definition known (e : event) : Prop := match e with EvKnown _ _ | EvFwd _ _ => True | _ => False end.
Definition hidden (a : access) : bool := match a with Public => false | _ => true end.
(** without overloaded functions, and without the names of using declarations *)
Definition chosen (cs : list call) (fs us : list tok) : list call :=
  filter (fun c => (negb (existsb (beq (c_name c)) us) && (length (filter (beq (c_name c)) fs) <=? 1)%nat)%bool) cs.
(** the arguments and the end of a function or operator *)
Definition argtoks (args : option (list tok)) : list tok := match args with None => [bs "()"] | Some a => bs "(" :: a ++ [bs ")"] end.
Definition endtoks (bd : option (list tok)) : list tok := match bd with None => [bs ";"] | Some b => bs "{" :: b ++ [bs "}"] end.
Definition bd_ok (bd : option (list tok)) : Prop := match bd with None => True | Some b => balanced (bs "{") (bs "}") b end.
Definition oper_ok (op : list tok) : Prop := op = [bs "()"] \/ (op <> [] /\ Forall (fun t => is t "()" = false /\ first_in "(" t = false) op).

Section Body.
  Variables (mbr respect : bool) (ns : tok) (tpar : bool).
  Definition seen (pr : bool) (cs : list call) : list call := if (respect && pr)%bool then [] else cs.
  (** [body p c tp pr co ts rs cs fs us]: the tokens [ts] are members of the class [c], whose name with
      its scope, followed by [::], is [p]; [tp]: of a template; [tpar]: one with parameters, not a full specialisation; [pr]: after a label for private members;
      [co]: there was a const since the last function.  [rs] is what is recorded in passing, [cs]
      are the calls for the members, [fs] the names of the functions, [us] those of the using declarations. *)
  Inductive body : tok -> tok -> bool -> bool -> bool -> list tok -> list event -> list call -> list tok -> list tok -> Prop :=
  | bd_nil p c tp pr co : body p c tp pr co [] [] [] [] []
  | bd_semi p c tp pr co ts rs cs fs us : body p c tp pr co ts rs cs fs us -> body p c tp pr co (bs ";" :: ts) rs cs fs us
  | bd_label a p c tp pr co ts rs cs fs us : body p c tp (hidden a) co ts rs cs fs us ->
      body p c tp pr co (acctok a :: bs ":" :: ts) rs cs fs us
  | bd_data d ds p c tp pr co ts rs cs fs us : mem_ok (MData d ds) ->
      (has_static (d_pre d) = true -> has_const (d_pre d) = false -> co = false) ->
      body p c tp pr (co || has_const (d_pre d) || existsb (fun d => has_const (d_pre d)) ds) ts rs cs fs us ->
      body p c tp pr co (mtoks1 (MData d ds) ++ ts) rs (seen pr (calls1 mbr p c (MData d ds)) ++ cs) fs us
  | bd_fun ty n args quals bd p c tp pr co ts rs cs fs us : mem_ok (MFun ty n args quals bd) ->
      (has_static ty = true -> co = false) ->
      body p c tp pr false ts rs cs fs us ->
      body p c tp pr co (mtoks1 (MFun ty n args quals bd) ++ ts) rs
        (seen pr (calls1 mbr p c (MFun ty n args quals bd)) ++ cs) ((bs "." ++ n) :: fs) us
  | bd_tfun par kar ty n args quals bd p c tp pr co ts rs cs fs us : tpl par kar -> mem_ok (MFun ty n args quals bd) ->
      (has_static ty = true -> co = false) ->
      body p c tp pr false ts rs cs fs us ->
      body p c tp pr co (bs "template" :: bs "<" :: par ++ bs ">" :: mtoks1 (MFun ty n args quals bd) ++ ts) rs cs ((bs "." ++ n) :: fs) us
  | bd_oper ty op args quals bd p c tp pr co ts rs cs fs us : Forall elem_ok ty -> oper_ok op ->
      match args with None => True | Some a => balanced (bs "(") (bs ")") a end ->
      Forall (fun t => first_in "{;" t = false) quals -> bd_ok bd ->
      body p c tp pr (co || has_const ty) ts rs cs fs us ->
      body p c tp pr co (etoks ty ++ bs "operator" :: op ++ argtoks args ++ quals ++ endtoks bd ++ ts) rs cs fs us
  | bd_using q n p c tp pr co ts rs cs fs us : ~ In (bs ";") (q ++ [n]) -> body p c tp pr co ts rs cs fs us ->
      body p c tp pr co (bs "using" :: q ++ n :: bs ";" :: ts) rs cs fs ((bs "." ++ n) :: us)
  | bd_friend q p c tp pr co ts rs cs fs us : ~ In (bs ";") q -> body p c tp pr co ts rs cs fs us ->
      body p c tp pr co (bs "friend" :: q ++ bs ";" :: ts) rs cs fs us
  | bd_typedef q n p c tp pr co ts rs cs fs us : ~ In (bs ";") (q ++ [n]) -> ~ In (bs "{") (q ++ [n]) ->
      ~ In (hd n q) [bs "struct"; bs "class"; bs "union"] ->
      body p c tp pr co ts rs cs fs us ->
      body p c tp pr co (bs "typedef" :: q ++ n :: bs ";" :: ts) ((if (ident n && negb pr)%bool then [EvName p n] else []) ++ rs) cs fs us
  | bd_union b n p c tp pr co ts rs cs fs us : balanced (bs "{") (bs "}") b -> ident n = true -> body p c tp pr co ts rs cs fs us ->
      body p c tp pr co (bs "union" :: bs "{" :: b ++ bs "}" :: n :: bs ";" :: ts) rs
        (seen pr [Call (bs "." ++ n) (bs "classdesc::is_array(),(char&)(arg." ++ n ++ bs "),1,sizeof(arg." ++ n ++ bs ")") n false] ++ cs) fs us
  | bd_union0 b p c tp pr co ts rs cs fs us : balanced (bs "{") (bs "}") b -> body p c tp pr co ts rs cs fs us ->
      body p c tp pr co (bs "union" :: bs "{" :: b ++ bs "}" :: bs ";" :: ts) rs cs fs us
  | bd_enum e p c tp co ts rs cs fs us : enum_ok e -> body p c tp false co ts rs cs fs us ->
      body p c tp false co (enumtoks e ++ ts) (EvEnum (e_class e) ns p (e_name e) (enum_names e) :: rs) cs fs us
  (* unnamed or private *)
  | bd_enum0 (b : list tok) p c tp pr co ts rs cs fs us : b <> [] -> pr = true \/ ident (hd ([] : tok) b) = false ->
      Forall (fun t : tok => t <> [] /\ t <> bs "}") b -> body p c tp pr co ts rs cs fs us ->
      body p c tp pr co (bs "enum" :: b ++ bs "}" :: ts) rs cs fs us
  | bd_fwd k name p c tp (pr : bool) co ts rs cs fs us : word name -> body p c tp pr co ts rs cs fs us ->
      body p c tp pr co (kw k :: name :: bs ";" :: ts) ((if pr then [] else [EvName p name]) ++ EvFwd p name :: rs) cs fs us
  (* in a template with parameters [class] counts as [struct], and the name of the class is taken for that of the outer one *)
  | bd_class (k : bool) name bl b rb cb fb ub p c (tp pr : bool) co ts rs cs fs us : word name -> Forall bspec_ok bl ->
      body (p ++ name ++ bs "::") (if tp then c else name) tp (k && negb tpar) false b rb cb fb ub ->
      (pr = true -> Forall known rb) ->
      body p c tp pr co ts rs cs fs us ->
      body p c tp pr co (kw k :: name :: btoks bl ++ bs "{" :: b ++ bs "}" :: ts)
        ((if pr then [] else [EvName p name]) ++ rb
         ++ (if (pr || tp)%bool then EvKnown p name else EvClass k ns p name (base_names respect k bl) (chosen cb fb ub)) :: rs) cs fs us.
End Body.

(** ** Class templates *)
Definition digit (c : ascii) : bool := ((48 <=? nat_of_ascii c) && (nat_of_ascii c <=? 57))%nat%bool.
Definition alnum_ (c : ascii) : bool := (letter c || digit c)%bool.
(** [w] is an identifier in the text [s]; digits in front of it are passed over, so that 3u has u *)
Definition word_in (w s : tok) : Prop := exists x d y, s = x ++ d ++ w ++ y /\ alnum_ (last x " "%char) = false
  /\ Forall (fun c => digit c = true) d /\ ident w = true /\ Forall (fun c => alnum_ c = true) w /\ alnum_ (hd " "%char y) = false.
(** the angle brackets closed less those opened *)
Fixpoint net (s : tok) : Z :=
  match s with [] => 0 | c :: s => net s + (if Ascii.eqb c ">" then 1 else if Ascii.eqb c "<" then -1 else 0) end%Z.
(** [q] is what precedes the last [::] of [b] that is outside angle brackets *)
Definition qual (q r b : tok) : Prop :=
  b = q ++ bs "::" ++ r /\ net r = 0%Z /\ forall q' r', b = q' ++ bs "::" ++ r' -> net r' = 0%Z -> (length r <= length r')%nat.
(** a base class that is named with typename in a template: a qualified name, and an identifier of the
    template parameters is one of those in [b], with its first occurrence in the qualification *)
Definition typed (templ b : tok) : Prop := exists q r w x y, qual q r b /\ word_in w templ /\ word_in w b /\ q = x ++ w ++ y.
(** [template <ps>], and for a partial specialisation the arguments it is for *)
Definition templ_of (ps : list param) : tok := ttxt (bs "<" :: params_toks ps ++ [bs ">"]).
Definition targs_of (ps : list param) (sp : option (list tok * list tok)) : tok :=
  match sp with None => bs "<" ++ args ps ++ bs ">" | Some (_, ks) => ttxt (bs "<" :: ks ++ [bs ">"]) end.
Definition sptoks (sp : option (list tok * list tok)) : list tok := match sp with None => [] | Some (ts, _) => bs "<" :: ts ++ [bs ">"] end.
Definition plain_char (c : ascii) : Prop := c <> "<"%char /\ c <> ">"%char /\ c <> ":"%char.
Definition sp_ok (sp : option (list tok * list tok)) : Prop :=
  match sp with
  | None => True
  | Some (ts, ks) => tpl ts ks /\ balanced (bs "{") (bs "}") ts /\ Forall (fun t => t = bs "<" \/ t = bs ">" \/ Forall plain_char t) ks
  end.
Definition params_ok (ps : list param) (par : list tok) : Prop :=
  ps <> [] /\ Forall param_ok ps /\ tpl par (params_toks ps) /\ balanced (bs "{") (bs "}") par.

(** the pragmas that concern the generator *)
Definition node_kinds : list tok := [bs "omit"; bs "treenode"; bs "graphnode"].
(** the end of a typedef: the declarators [q n] *)
Definition td_ok (q : list tok) (n : tok) : Prop := ~ In (bs ";") (q ++ [n]) /\ ~ In (bs "{") (q ++ [n]) /\ ~ In (bs "}") (q ++ [n]).
Definition ubody (b : option (list tok)) : list tok := match b with None => [] | Some b => bs "{" :: b ++ [bs "}"] end.
Section File.
  Variables (mbr respect : bool).
  (** [file ns ts es]: the tokens [ts], inside the namespaces [ns], are a sequence of declarations,
      for which the generator should record [es] *)
  Inductive file : tok -> list tok -> list event -> Prop :=
  | f_nil ns : file ns [] []
  | f_tok ns t ts es : outside t = true -> file ns ts es -> file ns (t :: ts) es
  | f_brace ns b eb ts es : file ns b eb -> file ns ts es -> file ns (bs "{" :: b ++ bs "}" :: ts) (eb ++ es)
  | f_ns ns name b eb ts es : word name -> file (ns ++ name ++ bs "::") b eb -> file ns ts es ->
      file ns (bs "namespace" :: name :: bs "{" :: b ++ bs "}" :: ts) (eb ++ es)
  | f_anon ns b eb ts es : file ns b eb -> file ns ts es ->
      file ns (bs "namespace" :: bs "{" :: b ++ bs "}" :: ts) (eb ++ es)
  | f_alias ns name b ts es : word name -> ~ In (bs ";") b -> ~ In (bs "{") b -> ~ In (bs "}") b -> file ns ts es ->
      file ns (bs "namespace" :: name :: bs "=" :: b ++ bs ";" :: ts) es
  | f_using ns b ts es : ~ In (bs ";") b -> ~ In (bs "{") b -> ~ In (bs "}") b -> file ns ts es ->
      file ns (bs "using" :: b ++ bs ";" :: ts) es
  (* a typedef, but of a structure or union; then one of a structure defined elsewhere, whose name is taken for that of a class declared outside all namespaces *)
  | f_typedef ns q ts es : ~ In (bs ";") q -> ~ In (bs "{") q -> ~ In (bs "}") q -> ~ In (hd ([] : tok) q) [bs "struct"; bs "class"; bs "union"] -> file ns ts es ->
      file ns (bs "typedef" :: q ++ bs ";" :: ts) es
  | f_tdfwd ns k name q ts es : word name -> Forall (fun t => first_in ";:{" t = false /\ t <> bs "}") q -> file ns ts es ->
      file ns (bs "typedef" :: kw k :: name :: q ++ bs ";" :: ts) (EvFwd [] name :: es)
  (* one of a structure that is defined in it, with a name, or without one, when the name is that after the closing brace; both count as outside all namespaces *)
  | f_tdclass ns k name bl b rs cs fs us q n ts es : word name -> Forall bspec_ok bl -> ~ In (bs ";") (btoks bl) ->
      body mbr respect ns false (name ++ bs "::") name false k false b rs cs fs us ->
      balanced (bs "{") (bs "}") b -> td_ok q n -> file ns (q ++ n :: bs ";" :: ts) es ->
      file ns (bs "typedef" :: kw k :: name :: btoks bl ++ bs "{" :: b ++ bs "}" :: q ++ n :: bs ";" :: ts)
        (rs ++ EvTypedef ns (Some name) name (base_names respect k bl) (chosen cs fs us) :: es)
  | f_tdanon ns k bl b rs cs fs us q n ts es : word n -> Forall bspec_ok bl -> ~ In (bs ";") (btoks bl) ->
      body mbr respect ns false (n ++ bs "::") n false k false b rs cs fs us ->
      balanced (bs "{") (bs "}") b -> td_ok q n -> last q (bs "}") <> bs "*" -> file ns (q ++ n :: bs ";" :: ts) es ->
      file ns (bs "typedef" :: kw k :: btoks bl ++ bs "{" :: b ++ bs "}" :: q ++ n :: bs ";" :: ts)
        (rs ++ EvTypedef ns (Some []) n (base_names respect k bl) (chosen cs fs us) :: es)
  (* of a union, with or without its members; a pointer or array is taken for a structure of its own, an array for one with the name ] *)
  | f_tdunion ns u b q n ts es : ~ In (bs ";") u -> ~ In (bs "{") u -> ~ In (bs "}") u -> td_ok q n ->
      match b with None => q = [] | Some b => balanced (bs "{") (bs "}") b end -> file ns ts es ->
      file ns (bs "typedef" :: bs "union" :: u ++ ubody b ++ q ++ n :: bs ";" :: ts)
        (EvTypedef ns None n []
           [if (is (last (bs "union" :: u ++ ubody b ++ q) []) "*" || is n "]")%bool then Call [] (bs "arg") [] false
            else Call [] (bs "classdesc::is_array(),(char&)arg,1,sizeof(arg)") [] false] :: es)
  | f_pragma ns p ts es : (forall k, In k node_kinds -> firstn (length k) p <> k) -> file ns ts es ->
      file ns ((bs "#pragma " ++ p) :: ts) es
  | f_node ns k name ts es : In k node_kinds -> file ns ts es ->
      file ns ((bs "#pragma " ++ k ++ bs " " ++ name) :: ts)
        (EvPragma k (filter (fun c => negb (Ascii.eqb c " ")) name) :: es)
  | f_paren ns b ts es : balanced (bs "(") (bs ")") b -> balanced (bs "{") (bs "}") b -> file ns ts es ->
      file ns (bs "(" :: b ++ bs ")" :: ts) es
  | f_fwd ns k name ts es : word name -> file ns ts es ->
      file ns (kw k :: name :: bs ";" :: ts) (EvFwd ns name :: es)
  | f_class ns k name bl b rs cs fs us ts es : word name -> Forall bspec_ok bl ->
      body mbr respect ns false (ns ++ name ++ bs "::") name false k false b rs cs fs us ->
      balanced (bs "{") (bs "}") b -> file ns ts es ->
      file ns (kw k :: name :: btoks bl ++ bs "{" :: b ++ bs "}" :: ts)
        (rs ++ EvClass k ns ns name (base_names respect k bl) (chosen cs fs us) :: es)
  | f_enum ns e ts es : enum_ok e -> balanced (bs "{") (bs "}") (enumtoks e) -> file ns ts es ->
      file ns (enumtoks e ++ ts) (EvEnum (e_class e) ns ns (e_name e) (enum_names e) :: es)
  (* a template, defined or declared *)
  | f_tclass ns ps par k name sp bl fl b rs cs fs us ts es : params_ok ps par -> word name -> sp_ok sp -> Forall bspec_ok bl ->
      body mbr respect ns true (ns ++ name ++ targs_of ps sp ++ bs "::") name true k false b rs cs fs us ->
      Forall2 (fun (f : bool) b => last b " "%char <> "<"%char /\ (f = true <-> typed (templ_of ps) b)) fl (base_names respect k bl) ->
      balanced (bs "{") (bs "}") b -> file ns ts es ->
      file ns (bs "template" :: bs "<" :: par ++ bs ">" :: kw k :: name :: sptoks sp ++ btoks bl ++ bs "{" :: b ++ bs "}" :: ts)
        (rs ++ EvTempl k ns name (templ_of ps) (targs_of ps sp) (combine fl (base_names respect k bl)) (chosen cs fs us) :: es)
  | f_tfwd ns ps par k name ts es : params_ok ps par -> word name -> file ns ts es ->
      file ns (bs "template" :: bs "<" :: par ++ bs ">" :: kw k :: name :: bs ";" :: ts) (EvFwd ns (name ++ targs_of ps None) :: es)
  (* any other template: a function, a variable, an alias; [t] begins what follows the parameters *)
  | f_tother ns par kar t ts es : tpl par kar -> balanced (bs "{") (bs "}") par -> outside t = true -> file ns ts es ->
      file ns (bs "template" :: bs "<" :: par ++ bs ">" :: t :: ts) es
  | f_tusing ns par kar b ts es : tpl par kar -> balanced (bs "{") (bs "}") par -> ~ In (bs ";") b -> ~ In (bs "{") b -> ~ In (bs "}") b -> file ns ts es ->
      file ns (bs "template" :: bs "<" :: par ++ bs ">" :: bs "using" :: b ++ bs ";" :: ts) es
  (* an explicit instantiation *)
  | f_inst ns t ts es : ~ In t [bs "<"; bs "{"; bs "}"] -> file ns ts es ->
      file ns (bs "template" :: t :: ts) es
  (* a full specialisation, defined or declared *)
  | f_spec ns k name a ka bl b rs cs fs us ts es : word name -> sp_ok (Some (a, ka)) -> Forall bspec_ok bl ->
      body mbr respect ns false (ns ++ name ++ targs_of [] (Some (a, ka)) ++ bs "::") name true k false b rs cs fs us ->
      balanced (bs "{") (bs "}") b -> file ns ts es ->
      file ns (bs "template" :: bs "<" :: bs ">" :: kw k :: name :: sptoks (Some (a, ka)) ++ btoks bl ++ bs "{" :: b ++ bs "}" :: ts)
        (rs ++ EvClass k ns ns (name ++ targs_of [] (Some (a, ka))) (base_names respect k bl) (chosen cs fs us) :: es)
  | f_sfwd ns k name a ka ts es : word name -> sp_ok (Some (a, ka)) -> file ns ts es ->
      file ns (bs "template" :: bs "<" :: bs ">" :: kw k :: name :: sptoks (Some (a, ka)) ++ bs ";" :: ts)
        (EvFwd ns (name ++ targs_of [] (Some (a, ka))) :: es)
  (* an unnamed enumeration *)
  | f_enum0 ns b ts es : balanced (bs "{") (bs "}") b -> file ns ts es ->
      file ns (bs "enum" :: bs "{" :: b ++ bs "}" :: ts) es.
End File.

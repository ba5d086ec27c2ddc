(** * The declarations that -overload should give: what the texts are to say.  Independent of the parser. *)
From Verif Require Import Base SMap Dec Parse_Model ClassParse_Model ClassParse_Spec.

(** [s] writes the tokens [ts], with blanks between them; none is needed before [::] *)
Inductive spells : list tok -> tok -> Prop :=
| sp_nil : spells [] []
| sp_blank ts s : spells ts s -> spells ts (s ++ bs " ")
| sp_tok ts s t : spells ts s -> s = [] \/ (exists z, s = z ++ bs " ") \/ t = bs "::" -> spells (ts ++ [t]) (s ++ t).

(** words that are not part of the type of a function *)
Definition specifier (t : tok) : bool := (is t "virtual" || is t "static" || is t "inline")%bool.
Definition rtoks1 (e : elem) : list tok :=
  match e with EWord t => if specifier t then [] else [t] | EStatic => [] | e => etoks1 e end.
Definition rtoks (es : list elem) : list tok := concat (map rtoks1 es).
(** template arguments follow a name; [after] says that there is one *)
Fixpoint shaped (after : bool) (es : list elem) : Prop :=
  match es with
  | [] => True
  | EWord t :: es => shaped (negb (specifier t)) es
  | EAngle _ :: es => after = true /\ shaped false es
  | _ :: es => shaped false es
  end.
(** a word of a return type does not look like the end of something *)
Definition ret_word (e : elem) : Prop := match e with EWord t => first_in "})" t = false | _ => True end.

(** a parameter and its default *)
Definition par : Type := list tok * option (list tok).
Definition par_toks (p : par) : list tok := fst p ++ match snd p with None => [] | Some d => bs "=" :: d end.
Fixpoint commas (l : list (list tok)) : list tok :=
  match l with [] => [] | [x] => x | x :: l => x ++ bs "," :: commas l end.
Definition pars_toks (ps : list par) : list tok := commas (map par_toks ps).
(** the parameters without their defaults *)
Definition bare_toks (ps : list par) : list tok := commas (map fst ps).
(** the text of a default: a comma only within braces *)
Inductive inbrace : tok -> Prop :=
| ib_nil : inbrace []
| ib_char c s : c <> "{"%char -> c <> "}"%char -> inbrace s -> inbrace (c :: s)
| ib_nest b s : inbrace b -> inbrace s -> inbrace ("{"%char :: b ++ "}"%char :: s).
Inductive dfltext : tok -> Prop :=
| dt_nil : dfltext []
| dt_char c s : c <> "{"%char -> c <> "}"%char -> c <> ","%char -> dfltext s -> dfltext (c :: s)
| dt_nest b s : inbrace b -> dfltext s -> dfltext ("{"%char :: b ++ "}"%char :: s).
Definition par_ok (p : par) : Prop :=
  fst p <> [] /\ Forall (fun t => ~ In "="%char t /\ ~ In "{"%char t /\ ~ In "}"%char t) (fst p)
  /\ match snd p with None => True | Some d => dfltext (concat (map (fun t => t ++ bs " ") d)) end.
(** the first parameter begins with an identifier that is not followed by a parenthesis *)
Definition starts_ok (a : list tok) : Prop :=
  match a with
  | t :: a => ident t = true /\
      match a with
      | [] => True
      | c :: a => first_in "(" c = false /\ (c = bs "::" -> exists d a', a = d :: a' /\ d <> bs "*" /\ first_in "()" d = false)
      end
  | [] => False
  end.

Record fdecl := FDecl { f_type : list elem; f_name : tok; f_pars : option (list par); f_quals : list tok; f_body : option (list tok) }.
Definition fdecl_toks (f : fdecl) : list tok :=
  etoks (f_type f) ++ f_name f :: match f_pars f with None => [bs "()"] | Some ps => bs "(" :: pars_toks ps ++ [bs ")"] end
  ++ f_quals f ++ match f_body f with None => [bs ";"] | Some b => bs "{" :: b ++ [bs "}"] end.
Definition fdecl_ok (f : fdecl) : Prop :=
  Forall elem_ok (f_type f) /\ Forall ret_word (f_type f) /\ shaped false (f_type f) /\ name_ok (f_name f) = true
  /\ (has_static (f_type f) && has_const (f_type f) = false)%bool
  /\ match f_pars f with
     | None => True
     | Some ps => Forall par_ok ps /\ starts_ok (pars_toks ps) /\ balanced (bs "(") (bs ")") (pars_toks ps)
     end
  /\ Forall (fun t => first_in ";{" t = false) (f_quals f)
  /\ match f_body f with None => True | Some b => balanced (bs "{") (bs "}") b end.
Inductive omem := OLabel (a : access) | OData (d : decl) (ds : list decl) | OFun (f : fdecl).
Definition omem_toks1 (m : omem) : list tok :=
  match m with OLabel a => mtoks1 (MLabel a) | OData d ds => mtoks1 (MData d ds) | OFun f => fdecl_toks f end.
Definition omem_toks (ms : list omem) : list tok := concat (map omem_toks1 ms).
Definition omem_ok (m : omem) : Prop :=
  match m with OLabel a => True | OData d ds => mem_ok (MData d ds) | OFun f => fdecl_ok f end.
Fixpoint ono_leak (c : bool) (ms : list omem) : Prop :=
  match ms with
  | [] => True
  | OLabel _ :: ms => ono_leak c ms
  | OData d ds :: ms =>
      (has_static (d_pre d) = true -> has_const (d_pre d) = false -> c = false)
      /\ ono_leak (c || has_const (d_pre d) || existsb (fun d => has_const (d_pre d)) ds) ms
  | OFun f :: ms => (has_static (f_type f) = true -> c = false) /\ ono_leak false ms
  end.

Section Sigs.
  Variables (mbr respect : bool) (prefix cls : tok).
  (** not a destructor, not deleted, and not one of the macros of classdesc *)
  Definition described (f : fdecl) : Prop :=
    last (etoks (f_type f)) [] <> bs "~" /\ ~ In (bs "delete") (f_quals f)
    /\ f_name f <> bs "CLASSDESC_ACCESS" /\ f_name f <> bs "CLASSDESC_ACCESS_TEMPLATE".
  Definition kind (f : fdecl) (k : sigty) : Prop :=
    match k with
    | TCtor => f_name f = cls
    | TStatic => f_name f <> cls /\ In EStatic (f_type f)
    | TConst => f_name f <> cls /\ ~ In EStatic (f_type f) /\ In (bs "const") (f_quals f)
    | TNone => f_name f <> cls /\ ~ In EStatic (f_type f) /\ ~ In (bs "const") (f_quals f)
    end.
  (** the declaration for [f], the [n]th function of its name *)
  Definition sig_for (n : nat) (f : fdecl) (s : msig) : Prop :=
    s_decl s = bs "TmpMemPtr_" ++ f_name f ++ dec (N.of_nat n) /\ s_prefix s = prefix /\ s_name s = f_name f
    /\ kind f (s_ty s) /\ spells (rtoks (f_type f)) (s_ret s)
    /\ spells (match f_pars f with None => [] | Some ps => bare_toks ps end) (s_args s).
  Definition call_for (f : fdecl) (s : msig) : call :=
    Call (bs "." ++ f_name f) ((match s_ty s with TCtor => bs "classdesc::is_constructor()," | _ => [] end) ++ s_decl s)
      (if has_static (f_type f) then [] else bs "arg") (has_static (f_type f)).
  (** [sigs h before ms cs ss]: for the members [ms], after functions of the names [before]; [h]: hidden *)
  Inductive sigs : bool -> list tok -> list omem -> list call -> list msig -> Prop :=
  | sg_nil h b : sigs h b [] [] []
  | sg_label h b a ms cs ss : sigs (respect && match a with Public => false | _ => true end) b ms cs ss -> sigs h b (OLabel a :: ms) cs ss
  | sg_data (h : bool) b d ds ms cs ss : sigs h b ms cs ss ->
      sigs h b (OData d ds :: ms) ((if h then [] else calls1 mbr prefix cls (MData d ds)) ++ cs) ss
  | sg_skip (h : bool) b f ms cs ss : h = true \/ ~ described f -> sigs h (b ++ [f_name f]) ms cs ss -> sigs h b (OFun f :: ms) cs ss
  | sg_fun b f s ms cs ss : described f -> sig_for (S (count_occ (list_eq_dec ascii_dec) b (f_name f))) f s ->
      sigs false (b ++ [f_name f]) ms cs ss -> sigs false b (OFun f :: ms) (call_for f s :: cs) (s :: ss).
End Sigs.

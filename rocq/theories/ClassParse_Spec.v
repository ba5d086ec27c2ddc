(** * What the generator should record for a class, from a grammar of class definitions

    Nothing here refers to the parser: a class is a syntax tree, [mtoks] gives its tokens, and
    [acts_of] the descriptor calls it should have. *)
From Verif Require Import Base SMap Dec.

Notation tok := (list ascii) (only parsing).
Definition is (t : tok) (s : string) : bool := beq t (bs s).
Definition first_in (s : string) (t : tok) : bool :=
  match t with [] => true | c :: _ => (Ascii.eqb c zero || existsb (Ascii.eqb c) (list_ascii_of_string s))%bool end.
Definition letter (c : ascii) : bool :=
  let n := nat_of_ascii c in
  ((97 <=? n) && (n <=? 122) || (65 <=? n) && (n <=? 90) || (n =? 95))%nat%bool.
Definition ident (t : tok) : bool := match t with c :: _ => letter c | [] => false end.

(** tokens that have no meaning of their own inside a class *)
Definition special : list string :=
  ["private"; "protected"; "public"; "typedef"; "template"; "using"; "class"; "struct"; "enum"; "operator";
   "alignas"; "static"; "const"; "friend"; "["; "<"; "}"]%string.
Definition plain (t : tok) : bool :=
  (negb (existsb (is t) special) && (negb (first_in "{;,:=(" t) || is t "::"))%bool.
(** the name of a member *)
Definition name_ok (t : tok) : bool := (plain t && ident t && negb (is t "union"))%bool.

(** balanced sequences of tokens *)
Inductive balanced (l r : tok) : list tok -> Prop :=
| b_nil : balanced l r []
| b_tok t ts : t <> l -> t <> r -> balanced l r ts -> balanced l r (t :: ts)
| b_nest b ts : balanced l r b -> balanced l r ts -> balanced l r (l :: b ++ r :: ts).

(** ** Declarations *)
(** what precedes a name: words such as [unsigned], [::], [*], [&], and template arguments *)
Inductive elem := EWord (t : tok) | EStatic | EConst | EAngle (ts : list tok).
Definition etoks1 (e : elem) : list tok :=
  match e with EWord t => [t] | EStatic => [bs "static"] | EConst => [bs "const"] | EAngle ts => bs "<" :: ts ++ [bs ">"] end.
Definition etoks (es : list elem) : list tok := concat (map etoks1 es).
Definition elem_ok (e : elem) : Prop :=
  match e with EWord t => plain t = true | EAngle ts => balanced (bs "<") (bs ">") ts /\ ~ In (bs ">>") ts | _ => True end.
Definition has_static (es : list elem) : bool := existsb (fun e => match e with EStatic => true | _ => false end) es.
Definition has_const (es : list elem) : bool := existsb (fun e => match e with EConst => true | _ => false end) es.

Inductive dend :=
| DNone                                   (* int x *)
| DInit (ts : list tok)                   (* int x = 3 *)
| DBits (ts : list tok)                   (* int x : 3 *)
| DBrace (ts : list tok)                  (* int x {3} *)
| DArr (dims : list (list tok))           (* int x[3][4] *)
| DArrInit (dims : list (list tok)) (ts : list tok)    (* int x[2] = {1,2} *)
| DArrBrace (dims : list (list tok)) (ts : list tok).  (* int x[2] {1,2} *)
Definition dimtoks (dims : list (list tok)) : list tok := concat (map (fun d => bs "[" :: d ++ [bs "]"]) dims).
Definition dtoks (d : dend) : list tok :=
  match d with
  | DNone => []
  | DInit ts => bs "=" :: ts
  | DBits ts => bs ":" :: ts
  | DBrace ts => bs "{" :: ts ++ [bs "}"]
  | DArr dims => dimtoks dims
  | DArrInit dims ts => dimtoks dims ++ bs "=" :: bs "{" :: ts ++ [bs "}"]
  | DArrBrace dims ts => dimtoks dims ++ bs "{" :: ts ++ [bs "}"]
  end.
Definition dims_ok (dims : list (list tok)) : Prop := dims <> [] /\ Forall (fun d => ~ In (bs "]") d) dims.
Definition dend_ok (d : dend) : Prop :=
  match d with
  | DNone => True
  | DInit ts | DBits ts => Forall (fun t => first_in ";," t = false) ts
  | DBrace ts => balanced (bs "{") (bs "}") ts
  | DArr dims => dims_ok dims
  | DArrInit dims ts | DArrBrace dims ts => dims_ok dims /\ balanced (bs "{") (bs "}") ts
  end.
Record decl := Decl { d_pre : list elem; d_name : tok; d_end : dend }.
Definition decl_ok (d : decl) : Prop := Forall elem_ok (d_pre d) /\ name_ok (d_name d) = true /\ dend_ok (d_end d).
Definition decltoks (d : decl) : list tok := etoks (d_pre d) ++ d_name d :: dtoks (d_end d).

Inductive access := Public | Protected | Private.
Definition acctok (a : access) : tok := match a with Public => bs "public" | Protected => bs "protected" | Private => bs "private" end.
Inductive mem :=
| MLabel (a : access)
| MData (d : decl) (ds : list decl)
| MFun (ty : list elem) (name : tok) (args : option (list tok)) (quals : list tok) (body : option (list tok)).
Definition mtoks1 (m : mem) : list tok :=
  match m with
  | MLabel a => [acctok a; bs ":"]
  | MData d ds => decltoks d ++ concat (map (fun d => bs "," :: decltoks d) ds) ++ [bs ";"]
  | MFun ty n args quals body =>
      etoks ty ++ n :: match args with None => [bs "()"] | Some a => bs "(" :: a ++ [bs ")"] end
      ++ quals ++ match body with None => [bs ";"] | Some b => bs "{" :: b ++ [bs "}"] end
  end.
Definition mtoks (ms : list mem) : list tok := concat (map mtoks1 ms).
(** the first argument does not make this a pointer to a function or member *)
Definition no_pointer (a : list tok) : Prop :=
  match a with
  | t :: a' => t <> bs "*" /\ match a' with c :: s :: _ => ~ (c = bs "::" /\ s = bs "*") | _ => True end
  | [] => True
  end.
Definition mem_ok (m : mem) : Prop :=
  match m with
  | MLabel _ => True
  | MData d ds => decl_ok d /\ Forall decl_ok ds /\ Forall (fun d => has_static (d_pre d) = false) ds
                  /\ (has_static (d_pre d) = true -> ds = [])
  | MFun ty n args quals body =>
      Forall elem_ok ty /\ name_ok n = true
      /\ (has_static ty && has_const ty = false)%bool
      /\ match args with
         | None => True
         | Some a => balanced (bs "(") (bs ")") a /\ Forall (fun t => first_in ";{" t = false) a
                     /\ ~ In (bs "delete") a /\ no_pointer a
         end
      /\ Forall (fun t => first_in ";{" t = false) quals
      /\ match body with None => True | Some b => balanced (bs "{") (bs "}") b end
  end.

(** ** The descriptor calls *)
Record call := Call { c_name : tok; c_arg : tok; c_member : tok; c_static : bool }.
Definition dimtext (dims : list (list tok)) : tok :=
  concat (map (fun _ => bs "[0]") dims) ++ bs "," ++ dec (N.of_nat (length dims))
  ++ concat (map (fun d => bs "," ++ concat (map (fun t => " "%char :: t) d)) dims).
Section Calls.
  Variables (mbr : bool)                    (* members by pointer to member *)
            (prefix : tok).                 (* the class, followed by :: *)
  Definition data_call (static const : bool) (d : decl) : call :=
    let n := d_name d in
    let ref := is (last (etoks (d_pre d)) []) "&" in
    let '(arg, member) :=
      match d_end d with
      | DArr dims | DArrInit dims _ | DArrBrace dims _ => (bs "classdesc::is_array(),arg." ++ n ++ dimtext dims, n)
      | _ => if (mbr && negb ref)%bool then (bs "&" ++ prefix ++ n, bs "arg") else (bs "arg." ++ n, [])
      end in
    if (static && const)%bool then Call (bs "." ++ n) (bs "classdesc::is_const_static()," ++ arg) [] false
    else Call (bs "." ++ n) arg member static.
  Definition fun_call (static : bool) (n : tok) : call :=
    Call (bs "." ++ n) (bs "&" ++ prefix ++ n) (if static then [] else bs "arg") static.
End Calls.
(** the names of the functions, constructors and destructors included *)
Definition fun_names (ms : list mem) : list tok :=
  concat (map (fun m => match m with MFun _ n _ _ _ => [bs "." ++ n] | _ => [] end) ms).
Section Acts.
  Variables (mbr respect : bool) (prefix cls : tok).
  Definition calls1 (m : mem) : list call :=
    match m with
    | MLabel _ => []
    | MData d ds => data_call mbr prefix (has_static (d_pre d)) (has_const (d_pre d)) d
                    :: map (data_call mbr prefix false false) ds
    | MFun ty n _ quals _ =>
        let destructor := is (last (etoks ty) []) "~" in
        if (beq n cls || destructor || existsb (fun t => is t "delete") quals
            || is n "CLASSDESC_ACCESS" || is n "CLASSDESC_ACCESS_TEMPLATE")%bool then []
        else [fun_call prefix (has_static ty) n]
    end.
  (** [pr]: the members are private, and that is respected *)
  Fixpoint calls (pr : bool) (ms : list mem) : list call :=
    match ms with
    | [] => []
    | MLabel a :: ms => calls (respect && match a with Public => false | _ => true end) ms
    | m :: ms => (if pr then [] else calls1 m) ++ calls pr ms
    end.
  (** without overloaded functions *)
  Definition acts_of (is_class : bool) (ms : list mem) : list call :=
    filter (fun c => (length (filter (beq (c_name c)) (fun_names ms)) <=? 1)%nat) (calls (respect && is_class) ms).
End Acts.

(** The parser forgets a [const] only after a function: no static member may come between *)
Fixpoint no_leak (c : bool) (ms : list mem) : Prop :=
  match ms with
  | [] => True
  | MLabel _ :: ms => no_leak c ms
  | MData d ds :: ms =>
      (has_static (d_pre d) = true -> has_const (d_pre d) = false -> c = false)
      /\ no_leak (c || has_const (d_pre d) || existsb (fun d => has_const (d_pre d)) ds) ms
  | MFun ty _ _ _ _ :: ms => (has_static ty = true -> c = false) /\ no_leak false ms
  end.

(** * Specification of the XML descriptor *)
From Verif Require Import Base SMap Dec Desc_Model Json_Model Json_Spec Xml_Model.

(** ** Strings *)
(** the pieces of a string between the occurrences of [c] *)
Fixpoint splitc (c : ascii) (s : list ascii) : list (list ascii) :=
  match s with
  | [] => [[]]
  | x :: s' => if ascii_dec x c then [] :: splitc c s'
               else match splitc c s' with a :: r => (x :: a) :: r | [] => [[x]] end
  end.
Fixpoint joinc (c : ascii) (l : list (list ascii)) : list ascii :=
  match l with [] => [] | [a] => a | a :: r => a ++ c :: joinc c r end.

(** characters that survive quoting: not the bytes 157-255, i.e. -99..-1 as signed char *)
Definition okchar (c : ascii) : bool := (N_of_ascii c <=? 156)%N.
(** what a character becomes when it is quoted and read again *)
Definition dq (c : ascii) : ascii := if okchar c then c else nul.
(** no piece between '=' signs is "<" or "</" *)
Definition oksegs (s : list ascii) : Prop :=
  Forall (fun seg => seg <> bs "<" /\ seg <> bs "</") (splitc "=" s).
(** text that survives *)
Definition oktext (s : list ascii) : Prop := Forall (fun c => okchar c = true) s /\ oksegs s.
(** characters written unchanged *)
Definition plain (c : ascii) : bool := beq (quote c) [c].
(** characters allowed in element names *)
Definition namechar (c : ascii) : bool :=
  isgraph c && forallb (fun x => if ascii_dec c x then false else true) (bs "&<>'""=/!?.#").
Definition okname (n : list ascii) : Prop := n <> [] /\ Forall (fun c => namechar c = true) n.

(** ** Documents: trees of named elements.
    [Leaf n raw txt]: an element with content [raw], meaning the text [txt]. *)
Inductive xt : Type :=
| Leaf (n raw txt : list ascii)
| Node (n : list ascii) (kids : list xt).
Definition xname (t : xt) : list ascii := match t with Leaf n _ _ => n | Node n _ => n end.

Section Render.
Variable pp : bool.
Definition ind (lvl : nat) : list ascii := if pp then repeat " "%char lvl else [].
Definition eol : list ascii := if pp then [nl] else [].
(** content, end tag and end of line of an element *)
Fixpoint body (lvl : nat) (t : xt) : list ascii :=
  match t with
  | Leaf n raw _ => raw ++ bs "</" ++ n ++ bs ">"
  | Node n kids =>
      eol ++ concat (map (fun k => ind (S lvl) ++ bs "<" ++ xname k ++ bs ">" ++ body (S lvl) k ++ eol) kids)
          ++ ind lvl ++ bs "</" ++ n ++ bs ">"
  end.
Definition render (lvl : nat) (t : xt) : list ascii :=
  ind lvl ++ bs "<" ++ xname t ++ bs ">" ++ body lvl t ++ eol.
(** white space directly inside an element *)
Definition spaces (lvl : nat) (kids : list xt) : list ascii :=
  eol ++ concat (map (fun _ => ind (S lvl) ++ eol) kids) ++ ind lvl.
(** text recorded for an element *)
Definition cont (lvl : nat) (t : xt) : option (list ascii) :=
  match (match t with Leaf _ _ txt => txt | Node _ kids => spaces lvl kids end) with
  | [] => None
  | s => Some s
  end.
End Render.

(** ** Paths: an element is identified by its name and its occurrence number among the
    siblings of that name *)
Notation path := (list (list ascii * N)).
Fixpoint nth_named (kids : list xt) (m : list ascii) (i : N) : option xt :=
  match kids with
  | [] => None
  | t :: kids' => if beq (xname t) m then (if (i =? 0)%N then Some t else nth_named kids' m (i - 1)%N)
                  else nth_named kids' m i
  end.
Definition kids_of (t : xt) : list xt := match t with Node _ kids => kids | _ => [] end.
Fixpoint sel (t : xt) (p : path) : option xt :=
  match p with
  | [] => Some t
  | (m, i) :: p' => match nth_named (kids_of t) m i with Some t' => sel t' p' | None => None end
  end.
Definition named (kids : list xt) (m : list ascii) : N := len (filter (fun t => beq (xname t) m) kids).
(** database keys: of the content of an element, of the number of children of a name *)
Definition ks (p : path) : list ascii := joinc dot (map (fun x => idx (fst x) (snd x)) p).
Definition kc (p : path) (m : list ascii) : list ascii :=
  match p with [] => m | _ => ks p ++ dot :: m end.

(** paths of valid names *)
Definition goodp (p : path) : Prop := Forall (fun x => okname (fst x)) p.
(** a document as the children of a nameless node *)
Definition doc (l : list xt) : xt := Node [] l.
(** the database [cm], [tc] records the document [l]: the text of every element under its
    path, the number of children of every name of every element, and nothing else *)
Definition records_doc (pp : bool) (l : list xt) (cm : cmap) (tc : tmap) : Prop :=
  (forall R, goodp R -> R <> [] -> mfind bcmp (ks R) cm =
     match sel (doc l) R with Some t' => cont pp (length R) t' | None => None end) /\
  (forall R n, goodp R -> okname n -> cnt tc (kc R n) =
     match sel (doc l) R with Some t' => named (kids_of t') n | None => 0%N end) /\
  (forall s, (forall R, goodp R -> R <> [] -> s <> ks R) -> mfind bcmp s cm = None) /\
  (forall s, (forall R n, goodp R -> okname n -> s <> kc R n) -> cnt tc s = 0%N).

(** ** Well formed XML: a scanner with a stack of open elements *)
Inductive mode := MText | MLt | MOpen (n : list ascii) | MClose (n : list ascii).
Fixpoint scan (s : list ascii) (stk : list (list ascii)) (m : mode) : bool :=
  match s with
  | [] => match stk, m with [], MText => true | _, _ => false end
  | c :: s' =>
      match m with
      | MText =>
          if ascii_dec c "<" then scan s' stk MLt
          else if ascii_dec c ">" then false
          else match stk with
               | [] => isspace c && scan s' stk MText     (* only white space outside the root *)
               | _ => scan s' stk MText
               end
      | MLt =>
          if ascii_dec c "/" then scan s' stk (MClose [])
          else namechar c && scan s' stk (MOpen [c])
      | MOpen n =>
          if ascii_dec c ">" then scan s' (n :: stk) MText
          else namechar c && scan s' stk (MOpen (n ++ [c]))
      | MClose n =>
          if ascii_dec c ">" then match stk with m :: stk' => beq m n && scan s' stk' MText | [] => false end
          else scan s' stk (MClose (n ++ [c]))
      end
  end.
(** every '&' begins one of the references &...; *)
Fixpoint amps (s : list ascii) : bool :=
  match s with
  | [] => true
  | c :: s' =>
      (if ascii_dec c "&"
       then match to_semi s' with Some (name, _) => match entity name with Some _ => true | None => false end
            | None => false end
       else true) && amps s'
  end.

(** well formed documents *)
Section Wf.
Variable okleaf : list ascii -> list ascii -> Prop.    (* raw, txt *)
Fixpoint okdoc (t : xt) : Prop :=
  match t with
  | Leaf n raw txt => okname n /\ okleaf raw txt
  | Node n kids => okname n /\ (fix all (l : list xt) : Prop :=
                                  match l with [] => True | k :: l' => okdoc k /\ all l' end) kids
  end.
End Wf.
(** the leaves written by xml_pack whose content can be read back *)
Inductive okleaf : list ascii -> list ascii -> Prop :=
| ok_text : forall s, oksegs (map dq s) -> okleaf (quotes s) (map dq s)
| ok_cdata : forall s, Forall (fun c => c <> "]"%char /\ c <> nul) s -> s <> bs "<" -> s <> bs "</" ->
    okleaf (bs "<![CDATA[" ++ s ++ bs "]]>") s.

(** ** Types whose values survive *)
Definition solid (t : xty) : bool := match t with XPtr _ | XPoly _ => false | _ => true end.
(** packed with a [Tag], so not doubly wrapped *)
Definition tagged (t : xty) : bool :=
  match t with XCdata | XSeq _ _ _ | XArr _ _ _ | XAssoc _ _ _ _ | XPair _ _ | XStruct _ => true | _ => false end.
Fixpoint xnames (fs : xflds) : list (list ascii) :=
  match fs with XNil => [] | XCons n _ fs' => n :: xnames fs' end.
(** [cst]: element of a container *)
Fixpoint xwf (cst : bool) (t : xty) {struct t} : Prop :=
  match t with
  | XBool | XChar | XFlt | XStr | XCdata => True
  | XInt _ bits => (bits = 16 \/ bits = 32 \/ bits = 64)%Z
  | XEnum ks => NoDup (map fst ks) /\
      Forall (fun p => fst p <> [] /\ Forall (fun c => plain c = true) (fst p)) ks
  | XSeq _ e t' | XAssoc _ _ e t' => okname e /\ xwf true t'
  | XArr _ e t' => okname e /\ solid t' = true /\ xwf false t'
  | XPair a b => xwf false a /\ xwf false b
  | XTup _ | XByte | XMap _ => False
  | XStruct fs => NoDup (xnames fs) /\ xwf_flds fs
  | XPtr t' => solid t' = true /\ (cst = true -> tagged t' = true) /\ xwf false t'
  | XPoly als => xwf_alts als
  end
with xwf_flds (fs : xflds) : Prop :=
  match fs with XNil => True | XCons n t fs' => okname n /\ xwf false t /\ xwf_flds fs' end
with xwf_alts (als : xalts) : Prop :=
  match als with
  | XANil => True
  | XACons tg fs als' => tg <> [] /\ oktext tg /\ NoDup (bs "type" :: xnames fs) /\ xwf_flds fs /\ xwf_alts als'
  end.

(** types whose objects contain no CDATA *)
Fixpoint cdata_free (t : xty) : bool :=
  match t with
  | XCdata => false
  | XSeq _ _ t' | XArr _ _ t' | XAssoc _ _ _ t' | XPtr t' | XMap t' => cdata_free t'
  | XPair a b => cdata_free a && cdata_free b
  | XTup ts => cdata_free_tys ts
  | XStruct fs => cdata_free_flds fs
  | XPoly als => cdata_free_alts als
  | _ => true
  end
with cdata_free_tys (ts : xtys) : bool :=
  match ts with xtnil => true | xtcons _ t ts' => cdata_free t && cdata_free_tys ts' end
with cdata_free_flds (fs : xflds) : bool :=
  match fs with XNil => true | XCons _ t fs' => cdata_free t && cdata_free_flds fs' end
with cdata_free_alts (als : xalts) : bool :=
  match als with XANil => true | XACons _ fs als' => cdata_free_flds fs && cdata_free_alts als' end.

Section Spec.
Variable fput : N -> list ascii.
Variable fget : list ascii -> N -> N.
Variable klt : nat -> jval -> jval -> bool.

Fixpoint xht (cst : bool) (t : xty) (v : jval) {struct t} : Prop :=
  match t, v with
  | XBool, VB _ => True
  | XChar, VC c => okchar c = true /\ isspace c = false /\ c <> "<"%char
  | XInt sgn bits, VI z => inrange sgn bits z
  | XFlt, VD x => fput x <> [] /\ Forall (fun c => plain c = true) (fput x) /\ fget (fput x) 0%N = x
  | XStr, VS s => oktext s
  | XCdata, VS s => Forall (fun c => c <> "]"%char /\ c <> nul) s /\ s <> bs "<" /\ s <> bs "</"
  | XEnum ks, VI z => In z (map snd ks)
  | XSeq fixed _ t', VL l => Forall (xht true t') l /\ match fixed with Some n => length l = n | None => True end
  | XArr n _ t', VL l => Forall (xht false t') l /\ length l = n
  | XAssoc multi c _ t', VL l => Forall (xht true t') l /\ ordered klt multi c l
  | XPair a b, VP x y => xht false a x /\ xht false b y
  | XStruct fs, VL l => xht_flds fs l
  | XPtr _, VNul => cst = false
  | XPtr t', VPtr x => xht false t' x
  | XPoly _, VNul => True
  | XPoly als, VPoly tag l => xht_alts als tag l
  | _, _ => False
  end
with xht_flds (fs : xflds) (l : list jval) {struct fs} : Prop :=
  match fs, l with
  | XNil, [] => True
  | XCons _ t fs', x :: l' => xht false t x /\ xht_flds fs' l'
  | _, _ => False
  end
with xht_alts (als : xalts) (tag : list ascii) (l : list jval) {struct als} : Prop :=
  match als with
  | XANil => False
  | XACons tg fs als' => if beq tg tag then xht_flds fs l else xht_alts als' tag l
  end.

(** the document of a value: the elements (at most one) it becomes, given its name *)
Fixpoint tree (cst : bool) (t : xty) (n : list ascii) (v : jval) {struct t} : list xt :=
  match t, v with
  | XBool, VB b => [let s := if b then bs "true" else bs "false" in Leaf n s s]
  | XChar, VC c => [Leaf n (quote c) [c]]
  | XInt _ _, VI z => [Leaf n (decZ z) (decZ z)]
  | XFlt, VD x => [Leaf n (fput x) (fput x)]
  | XStr, VS s => [Leaf n (quotes s) s]
  | XCdata, VS s => [Leaf n (bs "<![CDATA[" ++ s ++ bs "]]>") s]
  | XEnum ks, VI z => [let s := ek_sym (ek_make ks) z in Leaf n s s]
  | XSeq _ e t', VL l | XAssoc _ _ e t', VL l => [Node n (concat (map (tree true t' e) l))]
  | XArr _ e t', VL l => [Node n (concat (map (tree false t' e) l))]
  | XPair a b, VP x y => [Node n (tree false a (bs "first") x ++ tree false b (bs "second") y)]
  | XStruct fs, VL l => [Node n (tree_flds fs l)]
  | XPtr t', _ =>
      match (match v with VPtr x => tree false t' n x | _ => [] end) with
      | [] => if cst then [Node n []] else []
      | l => l
      end
  | XPoly als, VPoly tag l => [Node n (Leaf (bs "type") (quotes tag) tag :: tree_alts als tag l)]
  | XPoly als, _ => if cst then [Node n []] else []
  | _, _ => []
  end
with tree_flds (fs : xflds) (l : list jval) {struct fs} : list xt :=
  match fs, l with
  | XCons n t fs', x :: l' => tree false t n x ++ tree_flds fs' l'
  | _, _ => []
  end
with tree_alts (als : xalts) (tag : list ascii) (l : list jval) {struct als} : list xt :=
  match als with
  | XANil => []
  | XACons tg fs als' => if beq tg tag then tree_flds fs l else tree_alts als' tag l
  end.
End Spec.

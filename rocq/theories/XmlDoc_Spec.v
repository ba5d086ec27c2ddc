(** * Specification: XML documents as people write them

    The documents of [Xml_Spec] are the ones [xml_pack] writes.  Those of this file have
    what the reader of xml_unpack_base.h also accepts: attributes, empty-element tags,
    comments, processing instructions, declarations, CDATA sections, references, white
    space inside tags, and text between elements. *)
From Verif Require Import Base SMap Dec Desc_Model Json_Model Json_Spec Xml_Model Xml_Spec.

(** ** References *)
Definition hexdigit (n : N) : ascii := chr (if (n <? 10)%N then 48 + n else 87 + n)%N.
(** [refers r c]: [&r;] stands for [c] *)
Inductive refers : list ascii -> ascii -> Prop :=
| r_amp : refers (bs "amp") "&"
| r_lt : refers (bs "lt") "<"
| r_gt : refers (bs "gt") ">"
| r_quot : refers (bs "quot") """"
| r_apos : refers (bs "apos") "'"
| r_dec : forall n, (n < 128)%N -> refers (bs "#" ++ dec n) (chr n)
| r_hex : forall a b, (a < 8)%N -> (b < 16)%N -> refers (bs "#x" ++ [hexdigit a; hexdigit b]) (chr (16 * a + b)).
Definition ref (r : list ascii) : list ascii := bs "&" ++ r ++ bs ";".

(** ** Attribute values: [quoted q raw v]: between two [q], [raw] means [v] *)
Inductive quoted (q : ascii) : list ascii -> list ascii -> Prop :=
| q_nil : quoted q [] []
| q_lit : forall c raw v, c <> q -> c <> "&"%char -> quoted q raw v -> quoted q (c :: raw) (c :: v)
| q_ref : forall r c raw v, refers r c -> quoted q raw v -> quoted q (ref r ++ raw) (c :: v).

(** ** Text: [spelt b raw v].  [b]: the character before is neither the beginning of the
    text nor one of the delimiters of tokens; only then may a reference mean '<' *)
Definition delim (c : ascii) : bool :=
  isspace c || (if ascii_dec c "=" then true else false) || (if ascii_dec c ">" then true else false).
Definition textchar (c : ascii) : bool :=
  forallb (fun x => if ascii_dec c x then false else true) (bs "&<'""").
Inductive spelt : bool -> list ascii -> list ascii -> Prop :=
| s_nil : forall b, spelt b [] []
| s_lit : forall b c raw v, textchar c = true -> spelt (negb (delim c)) raw v -> spelt b (c :: raw) (c :: v)
| s_ref : forall b r c raw v, refers r c -> (c = "<"%char -> b = true) -> spelt true raw v -> spelt b (ref r ++ raw) (c :: v).

(** ** Comments, declarations and processing instructions *)
(** text in which double quotes come in pairs and, outside of them, '<' and '>' *)
Inductive closed : list ascii -> Prop :=
| c_nil : closed []
| c_char : forall c s, c <> """"%char -> c <> "<"%char -> c <> ">"%char -> closed s -> closed (c :: s)
| c_str : forall s s', ~ In """"%char s -> closed s' -> closed ("""" :: s ++ """" :: s')%char
| c_nest : forall s s', closed s -> closed s' -> closed ("<" :: s ++ ">" :: s')%char.
Inductive note :=
| NShort (s : list ascii)              (* <!s> of less than seven characters *)
| NLong (h s : list ascii)             (* <!hs>, [h] the first seven characters *)
| NPi (s : list ascii).                (* <?s> *)
Definition rnote (x : note) : list ascii :=
  match x with
  | NShort s => bs "<!" ++ s ++ bs ">"
  | NLong h s => bs "<!" ++ h ++ s ++ bs ">"
  | NPi s => bs "<?" ++ s ++ bs ">"
  end.
Definition oknote (x : note) : Prop :=
  match x with
  | NShort s => length s < 7 /\ ~ In ">"%char s
  | NLong h s => length h = 7 /\ ~ In ">"%char h /\ h <> bs "[CDATA[" /\ closed s
  | NPi s => closed s
  end.
Definition blank (s : list ascii) : Prop := Forall (fun c => isspace c = true) s.

(** ** Documents *)
(** an attribute: white space, name, white space, '=', white space, quoted value *)
Record attr := { a_ws : list ascii; a_name : list ascii; a_ws1 : list ascii; a_ws2 : list ascii;
                 a_q : ascii; a_raw : list ascii; a_val : list ascii }.
Definition rattr (a : attr) : list ascii :=
  a_ws a ++ a_name a ++ a_ws1 a ++ bs "=" ++ a_ws2 a ++ [a_q a] ++ a_raw a ++ [a_q a].
Definition okattr (a : attr) : Prop :=
  a_ws a <> [] /\ blank (a_ws a) /\ okname (a_name a) /\ blank (a_ws1 a) /\ blank (a_ws2 a) /\
  (a_q a = "'"%char \/ a_q a = """"%char) /\ quoted (a_q a) (a_raw a) (a_val a) /\
  ~ blank (a_val a).

(** [IElem n ats w e l w']: the tag [n] with attributes [ats] and white space [w] before its
    end; if [e], an empty-element tag, otherwise the content [l] and an end tag with white
    space [w'] before its '>'.  [INote x w]: [x] and the white space after it. *)
Inductive item :=
| IText (raw v : list ascii)
| ICdata (s : list ascii)
| INote (x : note) (w : list ascii)
| IElem (n : list ascii) (ats : list attr) (w : list ascii) (e : bool) (l : list item) (w' : list ascii).
Fixpoint ritem (i : item) : list ascii :=
  match i with
  | IText raw _ => raw
  | ICdata s => bs "<![CDATA[" ++ s ++ bs "]]>"
  | INote x w => rnote x ++ w
  | IElem n ats w e l w' =>
      bs "<" ++ n ++ concat (map rattr ats) ++ w ++
      (if e then bs "/>" else bs ">" ++ concat (map ritem l) ++ bs "</" ++ n ++ w' ++ bs ">")
  end.
(** the end of one item does not run into the next *)
Definition apart (i : item) (l : list item) : Prop :=
  match i, l with
  | IText _ _, IText _ _ :: _ => False
  | INote x w, IText raw _ :: _ =>
      match x with NShort _ => True | _ => match raw with c :: _ => isspace c = false | [] => False end end
  | _, _ => True
  end.
Fixpoint okitem (i : item) : Prop :=
  match i with
  | IText raw v => spelt false raw v
  | ICdata s => Forall (fun c => c <> "]"%char /\ c <> nul) s /\ s <> bs "<" /\ s <> bs "</"
  | INote x w => oknote x /\ blank w /\ match x with NShort _ => w = [] | _ => True end
  | IElem n ats w e l w' =>
      okname n /\ Forall okattr ats /\ blank w /\ blank w' /\ (e = true -> l = []) /\
      (fix all (l : list item) : Prop :=
         match l with [] => True | k :: l' => okitem k /\ apart k l' /\ all l' end) l
  end.
Fixpoint okitems (l : list item) : Prop :=
  match l with [] => True | k :: l' => okitem k /\ apart k l' /\ okitems l' end.

(** what comes before the root element *)
Inductive pro := PSpace (w : list ascii) | PNote (x : note).
Definition rpro (p : pro) : list ascii := match p with PSpace w => w | PNote x => rnote x end.
Definition okpro (p : pro) : Prop := match p with PSpace w => blank w | PNote x => oknote x end.

(** ** What a document says *)
Definition items_of (t : item) : list item := match t with IElem _ _ _ _ l _ => l | _ => [] end.
Definition attrs_of (t : item) : list attr := match t with IElem _ ats _ _ _ _ => ats | _ => [] end.
Definition is_named (m : list ascii) (t : item) : bool := match t with IElem n _ _ _ _ _ => beq n m | _ => false end.
Definition itext (t : item) : list ascii := match t with IText _ v => v | ICdata s => s | _ => [] end.
(** the text directly inside an element *)
Definition text_of (t : item) : list ascii := concat (map itext (items_of t)).
(** the [i]-th element named [m], counted from 0 *)
Fixpoint nth_el (l : list item) (m : list ascii) (i : N) : option item :=
  match l with
  | [] => None
  | t :: l' => if is_named m t then (if (i =? 0)%N then Some t else nth_el l' m (i - 1)%N) else nth_el l' m i
  end.
Fixpoint at_path (l : list item) (m : list ascii) (i : N) (p : path) : option item :=
  match nth_el l m i with
  | Some t => match p with [] => Some t | (m', i') :: p' => at_path (items_of t) m' i' p' end
  | None => None
  end.
Definition select (l : list item) (p : path) : option item :=
  match p with [] => None | (m, i) :: p' => at_path l m i p' end.
(** the number of elements named [m] *)
Definition count_el (l : list item) (m : list ascii) : N := len (filter (is_named m) l).
(** the value of the last attribute named [a] *)
Fixpoint attr_val (ats : list attr) (a : list ascii) : option (list ascii) :=
  match ats with
  | [] => None
  | x :: ats' => match attr_val ats' a with
                 | Some v => Some v
                 | None => if beq (a_name x) a then Some (a_val x) else None
                 end
  end.
Definition nonempty (s : list ascii) : option (list ascii) := match s with [] => None | _ => Some s end.
(** the database holds the text of every element under its path, every attribute under the
    path of its element, a dot and its name, the number of children of each name of every
    element, and nothing else *)
Definition records_el (root : item) (cm : cmap) (tc : tmap) : Prop :=
  (forall R, goodp R -> R <> [] -> mfind bcmp (ks R) cm =
     match select [root] R with Some t => nonempty (text_of t) | None => None end) /\
  (forall R a, goodp R -> R <> [] -> okname a -> mfind bcmp (ks R ++ dot :: a) cm =
     match select [root] R with Some t => attr_val (attrs_of t) a | None => None end) /\
  (forall n, okname n -> cnt tc n = count_el [root] n) /\
  (forall R n, goodp R -> R <> [] -> okname n -> cnt tc (ks R ++ dot :: n) =
     match select [root] R with Some t => count_el (items_of t) n | None => 0%N end) /\
  (forall s, (forall R, goodp R -> R <> [] -> s <> ks R) ->
     (forall R a, goodp R -> R <> [] -> okname a -> s <> ks R ++ dot :: a) -> mfind bcmp s cm = None).

(** * Model of the tokeniser: tokeninput.h *)
From Verif Require Import Base Desc_Model.

Definition bsl : ascii := "092"%char.                (* the backslash *)
Definition lf : ascii := "010"%char.
Definition cr : ascii := "013"%char.
Definition ceq (a b : ascii) : bool := Ascii.eqb a b.

(** The state of a tokeninput 24-27, 69: [rest]: what fgetc has still to deliver; [ef]: feof;
    [cur]: c, None for EOF; [out]: what was written to outputstream (nothing reads it when
    outputstream is NULL).  lineno is not modelled: nothing but messages uses it. *)
Record tin := mktin { rest : list ascii; ef : bool; cur : option ascii; out : list ascii;
                      token : list ascii; lasttoken : list ascii; tokenBeforeLast : list ascii }.
(** eof is the exception 68; [TLoop]: the loop in line 53 runs for ever; [TFuel]: the fuel of
    the model's own recursion ran out (proved impossible) *)
Inductive tres (A : Type) := TOk (a : A) (s : tin) | TEof (s : tin) | TLoop | TFuel.
Arguments TOk {A}. Arguments TEof {A}. Arguments TLoop {A}. Arguments TFuel {A}.
Definition tbind {A B : Type} (r : tres A) (k : A -> tin -> tres B) : tres B :=
  match r with TOk a s => k a s | TEof s => TEof s | TLoop => TLoop | TFuel => TFuel end.

(** getnextc 28-66.  [gn (Some lc)]: inside an attribute, with the last character lc.  ungetc
    of EOF does nothing and leaves feof set; ungetc of a character restores the stream. *)
Inductive gres := GC (c : option ascii) (r : list ascii) (e : bool) (o : list ascii) | GEof | GLoop.
Definition echo (c : option ascii) (e : bool) : list ascii := if e then [] else match c with Some x => [x] | None => [] end.
Fixpoint gn (attr : option ascii) (l : list ascii) : gres :=
  match attr with
  | Some lc =>
      match l with
      | [] => GLoop                                              (* 53: fgetc keeps returning EOF *)
      | x :: r => if (ceq x "]" && ceq lc "]")%bool
                  then match gn None r with                      (* 54, then 63 again *)
                       | GC c r' e o => GC c r' e (o ++ echo c e)
                       | g => g
                       end
                  else gn (Some x) r
      end
  | None =>
      match l with
      | [] => GEof
      | x :: r =>
          if ceq x bsl then
            match r with
            | [] => GC (Some bsl) [] true []
            | y :: r1 => if ceq y lf
                         then match r1 with
                              | [] => GC None [] true [bsl; lf]
                              | z :: r2 => GC (Some z) r2 false [bsl; lf; z]
                              end
                         else GC (Some bsl) r false [bsl]
            end
          else if ceq x "[" then
            match r with
            | [] => GC (Some "["%char) [] true []
            | y :: r1 => if ceq y "[" then gn (Some "["%char) r1 else GC (Some "["%char) r false ["["%char]
            end
          else GC (Some x) r false [x]
      end
  end.
Definition getnextc (s : tin) : tres unit :=
  match gn None (rest s) with
  | GC c r e o => TOk tt (mktin r e c (out s ++ o) (token s) (lasttoken s) (tokenBeforeLast s))
  | GEof => TEof (mktin [] true None (out s) (token s) (lasttoken s) (tokenBeforeLast s))
  | GLoop => TLoop
  end.
(** the constructor 70-71 *)
Definition tok_init (file : list ascii) : tres unit := getnextc (mktin file false None [] [] [] []).

Definition is (s : tin) (x : ascii) : bool := match cur s with Some c => ceq c x | None => false end.
Definition test (s : tin) (P : ascii -> bool) : bool := match cur s with Some c => P c | None => false end.
Definition settok (s : tin) (t : list ascii) : tin :=
  mktin (rest s) (ef s) (cur s) (out s) t (lasttoken s) (tokenBeforeLast s).
(** token+=c; EOF becomes the character 255 *)
Definition addc (s : tin) : tin := settok s (token s ++ [match cur s with Some c => c | None => "255"%char end]).
Definition bound (s : tin) : nat := S (length (rest s)).

(** while (P(c)) getnextc() : 92, 106, 210 *)
Fixpoint while_ (fuel : nat) (P : option ascii -> bool) (s : tin) : tres unit :=
  if P (cur s)
  then match fuel with O => TFuel | S f => tbind (getnextc s) (fun _ s1 => while_ f P s1) end
  else TOk tt s.
Definition isspace_o (c : option ascii) : bool := match c with Some x => isspace x | None => false end.
Definition notlf (c : option ascii) : bool := match c with Some x => negb (ceq x lf) | None => true end.
Definition skipspace (s : tin) : tres unit := while_ (bound s) isspace_o s.
(** the end of a comment, with the last character l: 99, 200-204 *)
Fixpoint comm (fuel : nat) (l : option ascii) (s : tin) : tres unit :=
  if (match l with Some x => ceq x "*" | None => false end && is s "/")%bool then TOk tt s
  else match fuel with O => TFuel | S f => tbind (getnextc s) (fun _ s1 => comm f (cur s) s1) end.
Definition comment (s : tin) : tres unit := tbind (getnextc s) (fun _ s1 => comm (bound s1) (cur s1) s1).

(** one preprocessor line 95-101 *)
Fixpoint hashline (fuel : nat) (s : tin) : tres unit :=
  if (notlf (cur s) && negb (ef s))%bool
  then match fuel with
       | O => TFuel
       | S f =>
           let s1 := if is s cr then s else addc s in
           tbind (if is s1 "/" then tbind (getnextc s1) (fun _ s2 => if is s2 "*" then comment s2 else TOk tt s2)
                  else TOk tt s1)
                 (fun _ s3 => tbind (getnextc s3) (fun _ s4 => hashline f s4))
       end
  else TOk tt s.
Definition pragma : list ascii := bs "#pragma".
Definition starts (p l : list ascii) : bool := if list_eq_dec ascii_dec (firstn (length p) l) p then true else false.
(** 93-107; true: a #pragma, nexttok returns *)
Fixpoint hashes (fuel : nat) (s : tin) : tres bool :=
  if is s "#" then
    match fuel with
    | O => TFuel
    | S f => tbind (hashline (bound s) s) (fun _ s1 =>
               if starts pragma (token s1) then TOk true s1
               else tbind (skipspace (settok s1 [])) (fun _ s2 => hashes f s2))
    end
  else TOk false s.

(** strings and characters 112-122 *)
Fixpoint strlit (fuel : nat) (q : ascii) (esc : bool) (s : tin) : tres unit :=
  match fuel with
  | O => TFuel
  | S f => let esc' := (is s bsl && negb esc)%bool in
           tbind (getnextc (addc s)) (fun _ s1 =>
             if (negb (is s1 q) || esc')%bool then strlit f q esc' s1
             else getnextc (addc s1))
  end.

Definition mem (c : ascii) (l : string) : bool := existsb (ceq c) (list_ascii_of_string l).
(** strchr also finds the terminating NUL *)
Definition strchr (l : string) (c : ascii) : bool := (ceq c zero || mem c l)%bool.
Definition ops : string := "#\!@$~(){}[]:;,.?%*|-+=<>^&/".
Definition noassign : string := "#\!@$~(){}[]:;,.?".
Definition take (s : tin) : tres unit := getnextc (addc s).
(** operators 129-215; true: goto nexttok_again *)
Definition operator (lc : ascii) (s : tin) : tres bool :=
  tbind (take s) (fun _ s =>
    let fin (r : tres unit) := tbind r (fun _ s => TOk false s) in
    if (is s "=" && negb (strchr noassign lc))%bool then fin (take s)
    else if mem lc "<>|&+-:" then
      if is s lc then
        fin (tbind (take s) (fun _ s => if (mem lc "<>" && is s "=")%bool then take s else TOk tt s))
      else if (ceq lc "-" && is s ">")%bool then
        fin (tbind (take s) (fun _ s => if is s "*" then take s else TOk tt s))
      else TOk false s
    else if ceq lc "." then
      if is s "." then fin (tbind (take s) (fun _ s => if is s "." then take s else TOk tt s)) else TOk false s
    else if ceq lc "[" then if is s "]" then fin (take s) else TOk false s
    else if ceq lc "(" then if is s ")" then fin (take s) else TOk false s
    else if ceq lc "/" then
      if is s "*" then tbind (comment s) (fun _ s => tbind (getnextc s) (fun _ s => TOk true s))
      else if is s "/" then tbind (while_ (bound s) notlf s) (fun _ s => TOk true s)
      else TOk false s
    else TOk false s).
Definition isident (c : ascii) : bool := (isalnum c || ceq c "_")%bool.
(** 223-227 *)
Fixpoint ident (fuel : nat) (s : tin) : tres unit :=
  if test s isident then match fuel with O => TFuel | S f => tbind (take s) (fun _ s1 => ident f s1) end
  else TOk tt s.

(** from nexttok_again 87-228 *)
Fixpoint again (fuel : nat) (s : tin) : tres unit :=
  match fuel with
  | O => TFuel
  | S f =>
      let s := settok s [] in
      if ef s then TEof s
      else
        tbind (skipspace s) (fun _ s =>
        tbind (hashes (bound s) s) (fun p s =>
        if p then TOk tt s
        else if ef s then TEof s
        else match cur s with
             | Some c =>
                 if (ceq c """" || ceq c "'")%bool then strlit (bound s) c false s
                 else if strchr ops c then tbind (operator c s) (fun b s => if b then again f s else TOk tt s)
                 else if negb (isident c) then tbind (getnextc s) (fun _ s => again f s)
                 else ident (bound s) s
             | None => tbind (getnextc s) (fun _ s => again f s)   (* EOF is no C character *)
             end))
  end.
(** nexttok 81-229 *)
Definition nexttok (s : tin) : tres unit :=
  again (bound s) (mktin (rest s) (ef s) (cur s) (out s) (token s) (token s) (lasttoken s)).

(** the tokens of a file, as read by a loop around nexttok, and how the loop ends *)
Inductive lend := LEof (out : list ascii) | LLoop | LFuel.
Fixpoint lex (fuel : nat) (s : tin) : list (list ascii) * lend :=
  match fuel with
  | O => ([], LFuel)
  | S f => match nexttok s with
           | TOk _ s' => let (ts, e) := lex f s' in (token s' :: ts, e)
           | TEof s' => ([], LEof (out s'))
           | TLoop => ([], LLoop)
           | TFuel => ([], LFuel)
           end
  end.
Definition lex_file (file : list ascii) : list (list ascii) * lend :=
  match tok_init file with
  | TOk _ s => lex (S (length file)) s
  | TEof s => ([], LEof (out s))
  | TLoop => ([], LLoop)
  | TFuel => ([], LFuel)
  end.

(** * Model of the program insert-friend, insert-friend.cc *)
From Verif Require Import Base SMap Dec Desc_Model Tok_Model Parse_Model.
Notation tok := (list ascii) (only parsing).

(** insert-friend.cc:31-66 extract_targs, on the characters after the first one.  [XUb]: a read past
    the terminating zero.  Unlike that of classdesc.cc (Parse_Model.ext) it does not stop when the
    spaces end the string: strchr finds the terminating zero, and the pointer moves past it. *)
Inductive xres := XOk (r : list ascii) | XUb | XFuel.
Fixpoint ext0 (fuel : nat) (l : list ascii) (r t : list ascii) : xres :=
  match fuel with
  | O => XFuel
  | S f =>
      match l with
      | [] => XOk r
      | c :: l' =>
          if isident c then ext0 f l' r (t ++ [c])
          else
            match skipws l with
            | [] => XUb
            | c :: l' =>
                if ceq c "<" then match skipangle l' 0 with Some l'' => ext0 f l'' r [] | None => XUb end
                else if ceq c "=" then
                  match skipeq (c :: l') 0 with
                  | Some (d, l'') => if ceq d zero then XUb else ext0 f l'' (r ++ t ++ [d]) []
                  | None => XUb
                  end
                else if mem c ">," then ext0 f l' (r ++ t ++ [c]) []
                else if isident c then ext0 f (c :: l') r []
                else ext0 f l' r []
            end
      end
  end.
Definition extract_targs0 (targs : list ascii) : xres :=
  match targs with
  | [] => XOk []
  | _ :: l => ext0 (S (length l + length l)) l [("<"%char : ascii)] []
  end.

(** What the program has done so far: cnt of deal_with_commas (72), and what was printed: each text
    with the number of tokens that were still to come.  The tokens read are echoed by getnextc
    (Tok_Model); see [output] for the two together.  targ_map (28) stays empty: the option that
    would read it is commented out (144-151). *)
Record st := St { cnt : N; prints : list (nat * list ascii) }.
Inductive ir (A : Type) :=
| IOk (a : A) (i : inp) (s : st)
| IEof (s : st)              (* tokeninput::eof, caught in main (198): the program ends *)
| IUb (s : st)
| IFuel.
Arguments IOk {A}. Arguments IEof {A}. Arguments IUb {A}. Arguments IFuel {A}.
Definition ibind {A B : Type} (r : ir A) (k : A -> inp -> st -> ir B) : ir B :=
  match r with IOk a i s => k a i s | IEof s => IEof s | IUb s => IUb s | IFuel => IFuel end.
Definition ilift {A : Type} (r : pres A) (s : st) : ir A :=
  match r with POk a i => IOk a i s | PEof => IEof s | PFuel => IFuel end.
Definition put (t : list ascii) (i : inp) (s : st) : st := St (cnt s) (prints s ++ [(length (more i), t)]).

(** insert-friend.cc:68-78 deal_with_commas: what is printed, and the new classname *)
Definition pad10 (t : list ascii) : list ascii := t ++ repeat " "%char (10 - length t).   (* %-10d *)
Definition alias (n : N) : tok := bs "___ecotif" ++ pad10 (dec n).
Definition deal_with_commas (name : tok) (s : st) : list ascii * tok * st :=
  if existsb (ceq ",") name
  then (bs "typedef " ++ name ++ bs " " ++ alias (cnt s) ++ bs ";" ++ [lf], alias (cnt s), St (cnt s + 1) (prints s))
  else ([], name, s).

(** insert-friend.cc:96-107 the loop over the members of a struct: true: at the colon of a label *)
Fixpoint sscan (ts : list tok) (t1 t : tok) (nb : Z) : pres bool :=
  match ts with
  | [] => PEof
  | u :: m =>
      if (teq u "}" && (nb <=? 0)%Z)%bool then POk false (Inp t1 t u m)
      else
        let nb := if teq u "{" then (nb + 1)%Z else nb in
        let nb := if teq u "}" then (nb - 1)%Z else nb in
        if (teq u ":" && (teq t "protected" || teq t "private"))%bool then POk true (Inp t1 t u m)
        else sscan m t u nb
  end.
(** insert-friend.cc:111-132 from really_insert_friend *)
Definition really (name targs : tok) (i : inp) (s : st) : ir unit :=
  let '(td, name, s) := deal_with_commas name s in
  let macro := if teq targs "" then bs "CLASSDESC_ACCESS(" else bs "CLASSDESC_ACCESS_TEMPLATE(" in
  let s := put ([lf] ++ td ++ macro ++ name ++ bs ");" ++ [lf]) i s in
  match targs with
  | [] => IOk tt i s
  | _ =>
      ibind (if teq (tk i) "}" then IOk tt i s
             else ibind (ilift (gobble "{" "}" i) s) (fun _ i s => IOk tt i s)) (fun _ i s =>
        let s0 := s in
        match (if existsb (ceq "<") name then XOk name
               else match extract_targs0 targs with XOk a => XOk (name ++ a) | x => x end) with
        | XOk name =>
            let '(td, name, s) := deal_with_commas name s in
            IOk tt i (put ([lf] ++ bs "#define CLASSDESC_TDEC template" ++ targs ++ [lf] ++ td
                           ++ bs "CLASSDESC_FDEF(" ++ name ++ bs ");" ++ [lf]) i s)
        | XUb => IUb (put ([lf] ++ bs "#define CLASSDESC_TDEC template" ++ targs ++ [lf]) i s0)
        | XFuel => IFuel
        end)
  end.
(** insert-friend.cc:80-133 insert_friend, with the prefix "" (192) *)
Definition insert_friend (targs : tok) (is_struct : bool) (i : inp) (s : st) : ir unit :=
  let name := tk i in
  ibind (ilift (next i) s) (fun _ i s =>
  ibind (if teq (tk i) "<" then ibind (ilift (get_template_args i) s) (fun t i s => IOk (name ++ t) i s) else IOk name i s)
    (fun name i s =>
  if strchr ":{" (first (tk i)) then
    ibind (ilift (skip_to "{" (pbound i) i) s) (fun _ i s =>
      if is_struct then
        ibind (ilift (sscan (more i) (tk1 i) (tk i) 0) s) (fun b i s => if b then really name targs i s else IOk tt i s)
      else really name targs i s)
  else IOk tt i s)).

(** insert-friend.cc:162-168 an explicit instantiation *)
Fixpoint inst (fuel : nat) (nb : Z) (i : inp) : pres unit :=
  match fuel with
  | O => PFuel
  | S f =>
      if ((0 <? nb)%Z || negb (teq (tk i) ";"))%bool then
        let nb := if teq (tk i) "{" then (nb + 1)%Z else nb in
        let nb := if teq (tk i) "}" then (nb - 1)%Z else nb in
        pbind (next i) (fun _ i => inst f nb i)
      else POk tt i
  end.
(** tokeninput.h:269-271 isalpha *)
Definition isalpha (c : ascii) : bool := (isident c && negb (mem c "0123456789"))%bool.
Definition isclass (t : tok) : bool := (teq t "class" || teq t "struct")%bool.
(** insert-friend.cc:156-196 the loop of main *)
Fixpoint loop (fuel : nat) (targs : tok) (i : inp) (s : st) : ir unit :=
  match fuel with
  | O => IFuel
  | S f =>
      (* 181-195 *)
      let turn (targs : tok) (i : inp) (s : st) : ir unit :=
        ibind (if (isclass (tk i) && negb (teq (tk1 i) "friend"))%bool then
                 ibind (ilift (next i) s) (fun _ i s =>
                   ibind (if isalpha (first (tk i)) then insert_friend targs (teq (tk1 i) "struct") i s else IOk tt i s)
                     (fun _ i s => IOk [] i s))
               else IOk targs i s)
          (fun targs i s => ibind (ilift (next i) s) (fun _ i s => loop f targs i s)) in
      if teq (tk i) "template" then
        ibind (ilift (next i) s) (fun _ i s =>
          if teq (tk i) "<" then
            ibind (ilift (get_template_args i) s) (fun targs i s =>
              if isclass (tk i) then turn targs i s else loop f [] i s)
          else ibind (ilift (inst (pbound i) 0 i) s) (fun _ i s => loop f targs i s))
      else turn targs i s
  end.

(** insert-friend.cc:136-201 main, on the tokens of the file.  [RNever]: 142-153 does not end when the
    first argument begins with a dash. *)
Inductive rres := RDone (s : st) | RUb (s : st) | RNever | RFuel.
Definition run_tokens (opts : list tok) (ts : list tok) : rres :=
  match opts with
  | ("-"%char :: _) :: _ => RNever
  | _ => match loop (S (S (length ts))) [] (Inp [] [] [] ts) (St 0 []) with
         | IEof s => RDone s
         | IUb s => RUb s
         | IFuel | IOk _ _ _ => RFuel
         end
  end.

(** ** The output *)
(** what the tokeniser has echoed after each token, and what it has echoed in the end *)
Fixpoint echoes (fuel : nat) (s : tin) : list (list ascii) * list ascii :=
  match fuel with
  | O => ([], [])
  | S f => match nexttok s with
           | TOk _ s' => let (es, e) := echoes f s' in (out s' :: es, e)
           | TEof s' => ([], out s')
           | TLoop | TFuel => ([], [])
           end
  end.
Definition echo_file (file : list ascii) : list (list ascii) * list ascii :=
  match tok_init file with
  | TOk _ s => echoes (S (length file)) s
  | TEof s => ([], out s)
  | TLoop | TFuel => ([], [])
  end.
(** both go to stdout, through the same buffer: a text printed with [m] of [n] tokens to come follows
    what has been echoed with the (n-m)th token; [w]: how many characters of the echo are out *)
Fixpoint weave (es : list (list ascii)) (e : list ascii) (w : nat) (l : list (nat * list ascii)) : list ascii :=
  match l with
  | [] => skipn w e
  | (m, t) :: l =>
      let x := nth (length es - m - 1) es [] in
      skipn w x ++ t ++ weave es e (length x) l
  end.
(** the whole program; None: it does not end, or its behaviour is undefined *)
Definition program (opts : list tok) (file : list ascii) : option (list ascii) :=
  match lex_file file with
  | (ts, LEof _) => match run_tokens opts ts with
                    | RDone s => let (es, e) := echo_file file in Some (weave es e 0 (prints s))
                    | _ => None
                    end
  | _ => None
  end.

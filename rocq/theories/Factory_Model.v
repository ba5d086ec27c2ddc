(** * Factories and polymorphic objects: factory.h, object.h, poly.h *)
From Verif Require Import Base SMap.

(** ** Factory<B,std::string>, factory.h 19-91 *)
Section Factory.
Variable C : Type.                                (* classes *)
Definition fmap := list (list ascii * C).
(** registerType 38-42: [std::map::insert] keeps an existing entry *)
Definition registerType (m : fmap) (p : list ascii * C) : fmap := mins bcmp (fst p) (snd p) m.
(** create 73-80: [None] is [throw InvalidType(t)] *)
Definition create (m : fmap) (t : list ascii) : option C := mfind bcmp t m.
(** types 83-89 *)
Definition types (m : fmap) : list (list ascii) := map fst m.
End Factory.

(** ** object.h: run-time type identifiers *)
(** An object is its class (the [This] of Object<This,Base>) and its value. *)
Section TypeId.
Variable V : Type.
Record obj := mkobj { ocls : nat; oval : V }.
(** [ids c] is the static [t] of Object<This>::type (-1 is [None]); [table] is factory() *)
Record tstate := mkts { ids : nat -> option nat; table : list (option obj) }.
Definition tinit : tstate := mkts (fun _ => None) [].

Fixpoint set_at (l : list (option obj)) (i : nat) (o : obj) : list (option obj) :=
  match i, l with
  | O, [] => [Some o]
  | O, _ :: l' => Some o :: l'
  | S i', [] => None :: set_at [] i' o
  | S i', x :: l' => x :: set_at l' i' o
  end.
(** Object::type 80-88.  The clone passed to register_with_factory has its type already
    set when that asks for it, 40-45. *)
Definition type_of (s : tstate) (o : obj) : nat * tstate :=
  match ids s (ocls o) with
  | Some t => (t, s)
  | None =>
      let t := length (table s) in
      (t, mkts (fun c => if c =? ocls o then Some t else ids s c) (set_at (table s) t o))
  end.
(** register_with_factory 40-45, called by Register<T> 55-58 *)
Definition register (s : tstate) (o : obj) : tstate :=
  let '(t, s') := type_of s o in mkts (ids s') (set_at (table s') t o).
(** object::create 49-52; [None] is undefined behaviour: the index is checked by an
    [assert] only *)
Definition create_id (s : tstate) (t : Z) : option obj :=
  if (t <? 0)%Z then None else nth (Z.to_nat t) (table s) None.

Inductive tyop := UseType (o : obj) | Register (o : obj).
Definition tstep (s : tstate) (p : tyop) : tstate :=
  match p with UseType o => snd (type_of s o) | Register o => register s o end.
Definition trun (h : list tyop) (s : tstate) : tstate := fold_left tstep h s.

(** pack and unpack of shared_ptr<T>, object.h 105-135.  [pk]/[up] are the virtual
    pack/unpack of a class; [isT c] tells whether the class derives from T. *)
Variable pk : obj -> list ascii.
Variable up : obj -> list ascii -> option (obj * list ascii).   (* None: throws *)
Variable isT : nat -> bool.
Definition enc_id (z : Z) : list ascii := le 4 (Z.to_N (z mod 2^32)).
Definition dec_id (l : list ascii) : Z :=
  let n := unle (firstn 4 l) in if (n <? 2^31)%N then Z.of_N n else (Z.of_N n - 2^32)%Z.
Definition pack_sp (s : tstate) (a : option obj) : list ascii * tstate :=
  match a with
  | None => (enc_id 0, s)
  | Some o => let '(t, s') := type_of s o in (enc_id (Z.of_nat t + 1) ++ pk o, s')
  end.
Inductive usp := UOk (a : option obj) (rest : list ascii) | UThrow | UUB.
Definition unpack_sp (s : tstate) (a : option obj) (b : list ascii) : usp :=
  if length b <? 4 then UThrow
  else
    let t := dec_id b in
    let b' := skipn 4 b in
    if (t =? 0)%Z then UOk a b'
    else match create_id s (t - 1) with
         | None => UUB
         | Some tmp => if isT (ocls tmp)
                       then match up tmp b' with Some (o, r) => UOk (Some o) r | None => UThrow end
                       else UUB                     (* the cast gives null; a->unpack *)
         end.
End TypeId.
Arguments mkobj {V} ocls oval.
Arguments ocls {V} o.
Arguments oval {V} o.
Arguments mkts {V} ids table.
Arguments ids {V} t.
Arguments table {V} t.
Arguments UseType {V} o.
Arguments Register {V} o.
Arguments UOk {V} a rest.
Arguments UThrow {V}.
Arguments UUB {V}.

(** ** poly<T>, poly.h 41-98 *)
(** The heap maps addresses to live objects (their value and class in one); addresses are
    never reused.  A poly variable holds [item]: null or an address, which may dangle. *)
Section Poly.
Variable O : Type.
Record pstate := mkps { live : nat -> option O; fresh_addr : nat; env : nat -> option (option nat) }.
Definition pinit : pstate := mkps (fun _ => None) 0 (fun _ => None).
Inductive pres := POk (s : pstate) | PUB | PThrow (s : pstate) | PIll.
Definition fupd {A} (f : nat -> A) (x : nat) (a : A) : nat -> A := fun y => if y =? x then a else f y.

(** new, with the given value *)
Definition new (s : pstate) (o : O) : pstate * nat :=
  (mkps (fupd (live s) (fresh_addr s) (Some o)) (S (fresh_addr s)) (env s), fresh_addr s).
(** delete of a null or live pointer; [None] is undefined behaviour *)
Definition del (s : pstate) (p : option nat) : option pstate :=
  match p with
  | None => Some s
  | Some a => match live s a with
              | Some _ => Some (mkps (fupd (live s) a None) (fresh_addr s) (env s))
              | None => None
              end
  end.
Definition setv (s : pstate) (x : nat) (p : option (option nat)) : pstate :=
  mkps (live s) (fresh_addr s) (fupd (env s) x p).
(** asg 47-49: clone the target of [y] into [x]; UB if that has been deleted *)
Definition asg (s : pstate) (x : nat) (y : option nat) : option pstate :=
  match y with
  | None => Some (setv s x (Some None))
  | Some a => match live s a with
              | None => None
              | Some o => let '(s', b) := new s o in Some (setv s' x (Some (Some b)))
              end
  end.
Definition okr (r : option pstate) : pres := match r with Some s => POk s | None => PUB end.

Inductive pop :=
| PNew (x : nat)                   (* poly x;            52 *)
| PCopy (x y : nat)                (* poly x(y);         53 *)
| PClone (x : nat) (o : O)         (* poly x(o);         54, o another object *)
| PAssign (x y : nat)              (* x = y;             55 *)
| PAssignT (x : nat) (o : O)       (* x = o;             56-57, o another object *)
| PAssignRef (x y : nat)           (* x = *y;            56-57 *)
| PAdd (x : nat) (o : O)           (* x.addObject<U>(); 66-74 *)
| PAddThrow (x : nat)              (* the same, with a constructor of U that throws *)
| PSwap (x y : nat)                (* 88 *)
| PWrite (x : nat) (o : O)         (* *x is modified *)
| PDestroy (x : nat).              (* 58 *)

Definition pstep (s : pstate) (p : pop) : pres :=
  match p with
  | PNew x => match env s x with None => POk (setv s x (Some None)) | Some _ => PIll end
  | PCopy x y => match env s x, env s y with
                 | None, Some i => okr (asg s x i)
                 | _, _ => PIll
                 end
  | PClone x o => match env s x with
                  | None => let '(s', b) := new s o in POk (setv s' x (Some (Some b)))
                  | Some _ => PIll
                  end
  | PAssign x y => match env s x, env s y with
                   | Some i, Some _ =>
                       match del s i with
                       | None => PUB
                       | Some s' => match env s' y with Some j => okr (asg s' x j) | None => PIll end
                       end
                   | _, _ => PIll
                   end
  | PAssignT x o => match env s x with
                    | Some i => match del s i with
                                | None => PUB
                                | Some s' => let '(s'', b) := new s' o in POk (setv s'' x (Some (Some b)))
                                end
                    | None => PIll
                    end
  | PAssignRef x y => match env s x, env s y with
                      | Some i, Some (Some a) =>
                          match del s i with
                          | None => PUB
                          | Some s' => okr (asg s' x (Some a))
                          end
                      | _, _ => PIll                     (* also *y of a null poly: assert(item) *)
                      end
  | PAdd x o => match env s x with
                | Some i => match del s i with
                            | None => PUB
                            | Some s' =>
                                let '(s'', b) := new s' o in
                                let s3 := setv s'' x (Some (Some b)) in
                                (* return *this: a temporary copy, destroyed by the caller *)
                                let '(s4, c) := new s3 o in okr (del s4 (Some c))
                            end
                | None => PIll
                end
  | PAddThrow x => match env s x with
                   | Some i => match del s i with
                               | None => PUB
                               | Some s' => PThrow s'       (* item still holds the old address *)
                               end
                   | None => PIll
                   end
  | PSwap x y => match env s x, env s y with
                 | Some i, Some j => POk (setv (setv s x (Some j)) y (Some i))
                 | _, _ => PIll
                 end
  | PWrite x o => match env s x with
                  | Some (Some a) => match live s a with
                                     | Some _ => POk (mkps (fupd (live s) a (Some o)) (fresh_addr s) (env s))
                                     | None => PUB
                                     end
                  | _ => PIll                            (* assert(item) *)
                  end
  | PDestroy x => match env s x with
                  | Some i => match del s i with
                              | None => PUB
                              | Some s' => POk (setv s' x None)
                              end
                  | None => PIll
                  end
  end.
(** a program: an exception is caught by the caller, which goes on *)
Fixpoint prun (ops : list pop) (s : pstate) : pres :=
  match ops with
  | [] => POk s
  | p :: ops' => match pstep s p with
                 | POk s' | PThrow s' => prun ops' s'
                 | r => r
                 end
  end.
End Poly.
Arguments mkps {O} live fresh_addr env.
Arguments live {O} p.
Arguments fresh_addr {O} p.
Arguments env {O} p.
Arguments POk {O} s.
Arguments PUB {O}.
Arguments PThrow {O} s.
Arguments PIll {O}.
Arguments PNew {O} x.
Arguments PCopy {O} x y.
Arguments PClone {O} x o.
Arguments PAssign {O} x y.
Arguments PAssignT {O} x o.
Arguments PAssignRef {O} x y.
Arguments PAdd {O} x o.
Arguments PAddThrow {O} x.
Arguments PSwap {O} x y.
Arguments PWrite {O} x o.
Arguments PDestroy {O} x.

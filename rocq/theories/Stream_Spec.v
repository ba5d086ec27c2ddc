(** * Specification for BinStream, iterators and files *)
From Verif Require Import Base PackBuf_Model Codec_Model Codec_Spec Stream_Model.

(** elements that are not themselves growing containers *)
Definition flat (t : bty) : bool := match t with BRaw _ | BVec _ => true | _ => false end.

(** [v] is a value of the type; ordered containers are in order *)
Fixpoint bhas klt (t : bty) (v : val) {struct t} : bool :=
  match t, v with
  | BRaw n, VRaw b => (length b =? n)%nat && (0 <? n)%nat && (N.of_nat n <? 2^63)%N
  | BVec n, VList vs => (0 <? n)%nat && (len vs * N.of_nat n <? 2^63)%N &&
      forallb (fun v => match v with VRaw b => (length b =? n)%nat | _ => false end) vs
  | BSeq te, VList vs => (len vs <? W)%N && forallb (bhas klt te) vs
  | BAssoc multi c te, VList vs => (len vs <? W)%N && forallb (bhas klt te) vs
                                   && sorted klt multi c vs
  | _, _ => false
  end.
(** sizes of PODs are positive and representable *)
Fixpoint bty_ok (t : bty) : bool :=
  match t with
  | BRaw n | BVec n => (0 <? n)%nat && (N.of_nat n <? 2^63)%N
  | BSeq te | BAssoc _ _ te => bty_ok te
  end.

(** the stream: eight byte counts and the raw elements *)
Fixpoint benc (t : bty) (v : val) {struct t} : list ascii :=
  match t, v with
  | BRaw _, VRaw b => b
  | BVec n, VList vs => le 8 (len vs) ++ concat (map raw_of vs)
  | BSeq te, VList vs | BAssoc _ _ te, VList vs => le 8 (len vs) ++ concat (map (benc te) vs)
  | _, _ => []
  end.

(** files *)
Definition wbytes (c : wcall) : list ascii := match c with WTyped x | WRaw x => x end.
(** reading positions [p] along the byte list [d]: what each call must return *)
Fixpoint slices (d : list ascii) (p : N) (cs : list rcall) : option (list (list ascii) * N) :=
  match cs with
  | [] => Some ([], p)
  | RReset :: cs' =>
      match slices d 0 cs' with Some (r, q) => Some ([] :: r, q) | None => None end
  | RTyped s :: cs' | RRaw s :: cs' =>
      if (p + s <=? len d)%N
      then match slices d (p + s) cs' with
           | Some (r, q) => Some (firstn (N.to_nat s) (skipn (N.to_nat p) d) :: r, q)
           | None => None
           end
      else None
  end.
Definition typed_ok (c : rcall) : bool := match c with RTyped 0 => false | _ => true end.
Definition wtyped_ok (c : wcall) : bool := match c with WTyped [] => false | _ => true end.
Definition typed_len (c : wcall) : N := match c with WTyped x => len x | WRaw _ => 0 end.
Definition sum (l : list N) : N := fold_right N.add 0%N l.

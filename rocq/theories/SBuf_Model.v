(** * Model of RESTProcessExample/SimpleBuffer.h

    [SimpleBuffer] is the second implementation in the repository of the buffer that
    RESTProcess uses; it holds a boost::variant of bool, int, double, string, a JSON
    value and an array of JSON values.  The JSON side is Json_Model.  A double is its 64
    bits, as in Json_Model; conversions between integers and doubles are modelled here
    exactly (IEEE 754 binary64, round to nearest, ties to even).  The narrowing of double
    to float stays a parameter.  json_pack_t::get_int narrows to 32 bits as in Json_Model. *)
From Verif Require Import Base SMap Desc_Model Json_Model.
Import ListNotations.

(** ** Integers and doubles (C++ conversions; no line in /repo) *)
Definition mag2d (m : N) : N :=
  if (m =? 0)%N then 0%N
  else
    let e := N.log2 m in
    if (e <=? 52)%N then ((e + 1023) * 2 ^ 52 + (m * 2 ^ (52 - e) - 2 ^ 52))%N
    else
      let u := (2 ^ (e - 52))%N in
      let q := (m / u)%N in
      let r := (m mod u)%N in
      let up := ((u <? 2 * r) || ((u =? 2 * r) && N.odd q))%N in
      ((e + 1023) * 2 ^ 52 + (q + (if up then 1 else 0) - 2 ^ 52))%N.
(** [double(z)] *)
Definition i2d (z : Z) : N := ((if (z <? 0)%Z then 2 ^ 63 else 0) + mag2d (Z.abs_N z))%N.
(** the integer part of a double; [None]: infinities and NaN *)
Definition d2z (d : N) : option Z :=
  let b := (d mod 2 ^ 63)%N in
  let e := (b / 2 ^ 52)%N in
  let f := (b mod 2 ^ 52)%N in
  if (e =? 2047)%N then None
  else
    let m := if (e =? 0)%N then 0%N
             else if (1075 <=? e)%N then ((2 ^ 52 + f) * 2 ^ (e - 1075))%N
             else ((2 ^ 52 + f) / 2 ^ (1075 - e))%N in
    Some (if (d / 2 ^ 63 =? 0)%N then Z.of_N m else (- Z.of_N m)%Z).
(** assignment of a double to an integer: undefined when the integer part does not fit *)
Definition int_fits (sgn : bool) (bits z : Z) : bool :=
  if sgn then ((- 2 ^ (bits - 1) <=? z) && (z <? 2 ^ (bits - 1)))%Z else ((0 <=? z) && (z <? 2 ^ bits))%Z.

(** ** The buffer: [SuperVariant], SimpleBuffer.h 46 *)
Inductive sbuf : Type :=
| SBool (b : bool)
| SInt (z : Z)
| SDbl (d : N)
| SStr (s : list ascii)
| SJson (j : jv)
| SArr (l : list jv).
(** RESTProcessType::Type, classdesc.h 1141 *)
Inductive rtype := Rboolean | Rint | Rfloat | Rstring | Rarray | Robject | Rnull.

(** TypeVisitor 22-30 *)
Definition sb_type (b : sbuf) : rtype :=
  match b with
  | SBool _ => Rboolean
  | SInt _ => Rint
  | SDbl _ => Rfloat
  | SStr _ => Rstring
  | SJson JNull => Rnull
  | SJson _ => Robject
  | SArr _ => Rarray
  end.
(** ToJsonVisitor 32-43 *)
Definition sb_json (b : sbuf) : jv :=
  match b with
  | SBool b => JBool b
  | SInt z => JInt z
  | SDbl d => JReal d
  | SStr s => JStr s
  | SJson j => j
  | SArr l => JArr l
  end.
(** SimpleBuffer(RESTProcessType::Type) 53-63: the variant is first made of its first
    alternative; there is no case for null; the literal of the string case is a pointer,
    for which the conversion to bool is the better one *)
Definition sb_of_type (t : rtype) : sbuf :=
  match t with
  | Rboolean => SBool false
  | Rint => SInt 0
  | Rfloat => SDbl 0
  | Rstring => SBool true
  | Robject => SJson JNull
  | Rarray => SArr []
  | Rnull => SBool false
  end.
(** operator=(const json_pack_t&) 67-94 *)
Definition sb_assign (j : jv) : sbuf :=
  match j with
  | JBool b => SBool b
  | JInt z => SInt (wrap true 32 z)
  | JReal d => SDbl d
  | JStr s => SStr s
  | JArr l => SArr l
  | JObj _ | JNull => SJson j
  end.
(** template constructor 96-100, also used for integers *)
Definition sb_make (t : jty) (v : jval) : jr sbuf :=
  s <~ pack t fresh [] v ;; JOk (sb_assign (jo s)).
(** array() 108-110: throws bad_get *)
Definition sb_array (b : sbuf) : jr (list jv) := match b with SArr l => JOk l | _ => JErr EOther end.

(** operator<< *)
Definition put (t : jty) (v : jval) : jr sbuf :=
  match t, v with
  | TBool, VB b => JOk (SBool b)                                    (* 119-120 *)
  | TChar, VC c => JOk (SStr [c])                                   (* 125-126 *)
  | TInt _ _ _, VI z => JOk (SDbl (i2d z))                          (* 152-157 *)
  | (TFlt | TDbl), VD d => JOk (SDbl d)
  | TStr, VS s => JOk (SStr s)                                      (* 165-168 *)
  | TEnum ks, VI z => JOk (SStr (ek_sym (ek_make ks) z))            (* 176-179 *)
  | TSeq _ t', VL l =>                                              (* 198-210 *)
      ys <~ jmapm (fun x => j <~ pack t' fresh [] x ;; JOk (jo j)) l ;; JOk (SArr ys)
  | (TBool | TChar | TInt _ _ _ | TFlt | TDbl | TStr | TEnum _ | TSeq _ _), _ => JUB
  | _, _ => sb_make t v                                             (* 239-253: json_pack_t tmp; tmp<<x; b=tmp *)
  end.

Section Get.
Variable klt : nat -> jval -> jval -> bool.
Variable narrow : N -> N.
Notation unpack := (unpack klt narrow i2d).

(** numbers 128-150 *)
Definition get_num (t : jty) (b : sbuf) (a : jval) : jr jval :=
  match b with
  | SDbl d =>
      match t with
      | TInt _ sgn bits =>
          match d2z d with
          | Some z => if int_fits sgn bits z then JOk (VI z) else JUB
          | None => JUB
          end
      | TFlt => JOk (VD (narrow d))
      | _ => JOk (VD d)
      end
  | SInt z =>
      match t with
      | TInt _ sgn bits => JOk (VI (wrap sgn bits z))
      | TFlt => JOk (VD (narrow (i2d z)))
      | _ => JOk (VD (i2d z))
      end
  | SJson JNull => JErr EOther
  | SJson j => unpack false t j [] a
  | _ => JErr EOther
  end.
(** reading each element of an array: 188-194 *)
Fixpoint read_elems (t : jty) (l : list jv) : jr (list jval) :=
  match l with
  | [] => JOk []
  | j :: l' => e <~ unpack false t j [] (dflt t) ;; r <~ read_elems t l' ;; JOk (e :: r)
  end.
(** operator>>; [a] is the value of the target before *)
Definition get (t : jty) (b : sbuf) (a : jval) : jr jval :=
  match t with
  | TBool => match b with SBool x => JOk (VB x) | _ => JErr EOther end       (* 116-117 *)
  | TChar => match b with SStr s => JOk (VC (hd nul s)) | _ => JErr EOther end (* 122-123 *)
  | TInt _ _ _ | TFlt | TDbl => get_num t b a
  | TStr => match b with SStr s => JOk (VS s) | _ => JErr EOther end         (* 160-163 *)
  | TEnum ks => match b with SStr s => JOk (VI (ek_val (ek_make ks) s)) | _ => JErr EOther end (* 171-174 *)
  | TSeq fixed t' =>                                                         (* 182-196 *)
      match fixed with
      | None =>
          match b with
          | SArr l => r <~ read_elems t' l ;; JOk (VL r)
          | _ => JOk (VL [])
          end
      | Some _ =>              (* classdesc.h 472-493: resize and push_back of std::array do nothing *)
          match b with
          | SArr l => _r <~ read_elems t' l ;; JOk a
          | _ => JOk a
          end
      end
  | _ => match b with SJson j => unpack false t j [] a | _ => JErr EOther end (* 224-238 *)
  end.
End Get.

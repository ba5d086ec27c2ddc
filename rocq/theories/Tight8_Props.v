(** * Further properties of Python arrays and of SimpleBuffer *)
From Verif Require Import Base SMap Desc_Model Desc_Props Json_Model SBuf_Model PyClass_Model.

(** ** C109: assigning to elements of arrays *)
(** Assigning to an element outside the row is undefined behaviour, wherever the row is in
    the array. *)
Theorem C109_set_bounds : forall mem off d i v, (d <= i)%nat -> aset mem off [d] i v = ASetUB.
Proof. intros mem off d i v L. cbn [aset]. destruct (Nat.ltb_spec i d); [lia|reflexivity]. Qed.
Print Assumptions C109_set_bounds.
Example C109_set_bounds_ex : (2 <= 2)%nat /\ aset [0; 1; 2; 3]%Z 0 [2]%nat 2 9 = ASetUB.
Proof. split; [lia|reflexivity]. Qed.
(** Rows, and parts of rank more than 1, cannot be assigned. *)
Theorem C109_set_row : forall dims mem off i v, length dims <> 1%nat -> aset mem off dims i v = ASetThrow.
Proof. intros [|d [|e dims]] mem off i v L; try reflexivity. now destruct L. Qed.
Print Assumptions C109_set_row.
Example C109_set_row_ex : length [2; 2]%nat <> 1%nat /\ aset [0; 1; 2; 3]%Z 0 [2; 2]%nat 1 9 = ASetThrow.
Proof. split; [discriminate|reflexivity]. Qed.

(** ** C107: abstract classes *)
Theorem C107_abstract : forall e n b ms, nth_error e n = Some (b, ms) -> abstract e (TCls n) = b /\ members e n = ms.
Proof.
  intros e n b ms N. unfold abstract, members. apply nth_error_nth with (d := (false, [])) in N. now rewrite N.
Qed.
Print Assumptions C107_abstract.
Example C107_abstract_ex : nth_error [(true, []); (false, [(bs "m", [TCls 0])])] 0 = Some (true, []) /\
  abstract [(true, []); (false, [(bs "m", [TCls 0])])] (TCls 0) = true.
Proof. split; reflexivity. Qed.

(** ** C110: reading numbers and characters *)
(** An integer read as float is rounded to double and then to float; as double, to double. *)
Theorem C110_int_real : forall klt narrow z a,
  get klt narrow Json_Model.TFlt (SInt z) a = JOk (VD (narrow (i2d z))) /\
  get klt narrow Json_Model.TDbl (SInt z) a = JOk (VD (i2d z)).
Proof. split; reflexivity. Qed.
Print Assumptions C110_int_real.
(** A number read from a buffer that holds an object is what the JSON reader makes of it. *)
Theorem C110_object_number : forall klt narrow t kvs a,
  (exists n sgn bits, t = Json_Model.TInt n sgn bits) \/ t = Json_Model.TFlt \/ t = Json_Model.TDbl ->
  get klt narrow t (SJson (JObj kvs)) a = unpack klt narrow i2d false t (JObj kvs) [] a.
Proof. intros klt narrow t kvs a [(n & sgn & bits & ->)|[-> | ->]]; reflexivity. Qed.
Print Assumptions C110_object_number.
Example C110_object_number_ex :
  get (fun _ _ _ => false) (fun d => d) Json_Model.TDbl (SJson (JObj [])) (VD 3) =
  unpack (fun _ _ _ => false) (fun d => d) i2d false Json_Model.TDbl (JObj []) [] (VD 3).
Proof. reflexivity. Qed.
(** A char is the first one of a string; nul for the empty string. *)
Theorem C110_first_char : forall klt narrow c s a,
  get klt narrow Json_Model.TChar (SStr (c :: s)) a = JOk (VC c) /\
  get klt narrow Json_Model.TChar (SStr []) a = JOk (VC nul).
Proof. split; reflexivity. Qed.
Print Assumptions C110_first_char.
(** Assigning JSON keeps the type. *)
Theorem C110_assign_type : forall j, sb_type (sb_assign j) =
  match j with
  | JNull => Rnull | JBool _ => Rboolean | JInt _ => Rint | JReal _ => Rfloat | JStr _ => Rstring
  | JArr _ => Rarray | JObj _ => Robject
  end /\ (forall d, j = JReal d -> sb_assign j = SDbl d).
Proof. intros j. split; [destruct j; reflexivity|intros d ->; reflexivity]. Qed.
Print Assumptions C110_assign_type.

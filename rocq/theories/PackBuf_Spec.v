(** * What a user expects of a serialisation buffer: a byte queue with a read cursor *)
From Verif Require Import Base PackBuf_Model.

(** bytes currently in the buffer, and the read cursor *)
Record queue : Type := mk_q { q_bytes : list ascii; q_pos : N }.

(** calls that respect the documented use of the interface: sizes that exist in a
    64-bit address space, seeks that stay inside the buffer *)
Definition op_ok (q : queue) (o : op) : Prop :=
  match o with
  | OPackRaw x => (len (q_bytes q) + len x < W)%N
  | OAppend x => (0 < len x /\ len (q_bytes q) + len x < W)%N
  | OUnpackRaw s | OPopoff s => (q_pos q + s < W)%N
  | OSeeki z => (- Z.of_N (len (q_bytes q)) <= z <= 0)%Z
  | OSeeko z => (0 <= Z.of_N (q_pos q) + z < Z.of_N W)%Z
  | OResize s _ => (0 < s < W)%N
  | OReseti | OReseto | OClear => True
  end.

(** [q_step q o r q']: from [q] call [o] may give result [r] and new state [q'] *)
Inductive q_step (q : queue) : op -> out -> queue -> Prop :=
| QPack x : q_step q (OPackRaw x) RUnit (mk_q (q_bytes q ++ x) (q_pos q))
| QAppend x : q_step q (OAppend x) RUnit (mk_q (q_bytes q ++ x) (q_pos q))
| QUnpack s x pre post :
    q_bytes q = pre ++ x ++ post -> len pre = q_pos q -> len x = s ->
    q_step q (OUnpackRaw s) (RBytes x) (mk_q (q_bytes q) (q_pos q + s))
| QPopoff s x pre post :
    q_bytes q = pre ++ x ++ post -> len pre = q_pos q -> len x = s ->
    q_step q (OPopoff s) (RBytes x) (mk_q (q_bytes q) (q_pos q + s))
| QUnpackEnd s : (len (q_bytes q) < q_pos q + s)%N ->
    q_step q (OUnpackRaw s) (RThrow PackError) q
| QPopoffEnd s : (len (q_bytes q) < q_pos q + s)%N ->
    q_step q (OPopoff s) (RThrow PackError) q
| QReseti : q_step q OReseti RUnit (mk_q [] (q_pos q))
| QReseto : q_step q OReseto RUnit (mk_q (q_bytes q) 0)
| QSeeki z keep drop :
    q_bytes q = keep ++ drop -> Z.of_N (len drop) = (- z)%Z ->
    q_step q (OSeeki z) RUnit (mk_q keep (q_pos q))
| QSeeko z p : Z.of_N p = (Z.of_N (q_pos q) + z)%Z ->
    q_step q (OSeeko z) RUnit (mk_q (q_bytes q) p)
| QClear : q_step q OClear RUnit (mk_q [] 0)
| QShrink s junk keep drop :
    q_bytes q = keep ++ drop -> len keep = s ->
    q_step q (OResize s junk) RUnit (mk_q keep (q_pos q))
| QGrow s junk extra :      (* content of the extra space is unspecified *)
    len (q_bytes q ++ extra) = s ->
    q_step q (OResize s junk) RUnit (mk_q (q_bytes q ++ extra) (q_pos q)).

(** a whole history, each call made in accordance with [op_ok] *)
Inductive q_run : queue -> list op -> list out -> queue -> Prop :=
| QR_nil q : q_run q [] [] q
| QR_cons q o r q' os rs q'' :
    q_step q o r q' -> q_run q' os rs q'' -> q_run q (o :: os) (r :: rs) q''.

(** the abstract view of a concrete buffer *)
Definition q_of (st : pack_buf) : queue := mk_q (pb_data st) (pb_pos st).

(** every call of the history respects [op_ok] in the state in which it is made *)
Fixpoint ops_ok (st : pack_buf) (os : list op) : Prop :=
  match os with
  | [] => True
  | o :: os' => op_ok (q_of st) o /\
      match snd (step st o) with Some st' => ops_ok st' os' | None => True end
  end.
(** the same, relative to the abstract queue only *)
Definition q_ops_ok (q : queue) (os : list op) : Prop :=
  forall os1 o os2 rs q', os = os1 ++ o :: os2 -> q_run q os1 rs q' -> op_ok q' o.

(** bytes put in / got out by a history *)
Definition packed_bytes (os : list op) : list ascii :=
  concat (map (fun o => match o with OPackRaw x | OAppend x => x | _ => [] end) os).
Definition returned_bytes (rs : list out) : list ascii :=
  concat (map (fun r => match r with RBytes x => x | _ => [] end) rs).
Definition is_pack_or_unpack (o : op) : bool :=
  match o with OPackRaw _ | OUnpackRaw _ | OPopoff _ => true
             | OAppend x => (0 <? len x)%N | _ => false end.
(** no read asks for so much that [pos()+s] could leave the range of [size_t] when
    [total] bytes are ever packed *)
Definition sane_size (total : N) (o : op) : bool :=
  match o with OUnpackRaw s | OPopoff s => (s + total <? W)%N | _ => true end.

(** lexicographic-by-length order on byte strings, [memcmp] within a length *)
Fixpoint bytes_lt (x y : list ascii) : Prop :=
  match x, y with
  | a :: x', b :: y' =>
      (N_of_ascii a < N_of_ascii b)%N \/ (a = b /\ bytes_lt x' y')
  | [], _ :: _ => True
  | _, [] => False
  end.
Definition size_first_lt (x y : list ascii) : Prop :=
  (len x < len y)%N \/ (len x = len y /\ bytes_lt x y).

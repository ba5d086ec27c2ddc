(** * xdr_pack: swap and move

    Source: /repo/pack_base.h 148-156, 325-358; /repo/xdr_pack.cc 150-185.
    An XDR stream is an object of the library: what matters here is whether it encodes or decodes
    and over which memory ([s_mem]: the address of the block it was created for).  A null pointer is
    [None].  Only memory buffers; the fields of pack_t other than the block, size and position are in
    PackBuf_Model.v. *)
From Verif Require Import Base.

Inductive xop : Type := Encode | Decode.
Record stream : Type := mk_s { s_op : xop; s_mem : nat; s_id : nat }.
Record xdr_obj : Type := mk_xo
  { xo_mem : nat;                (* m_data *)
    xo_size : nat; xo_pos : nat;
    xo_asize : nat;
    xo_in : option stream;
    xo_out : option stream }.
(** xdr_pack.cc 150-155 *)
Definition xo_new (mem id1 id2 : nat) : xdr_obj :=
  mk_xo mem 1024 0 0 (Some (mk_s Encode mem id1)) (Some (mk_s Decode mem id2)).
(** pack_base.h 350-357; the last line exchanges [input] with the other's [output] *)
Definition xo_swap (a b : xdr_obj) : xdr_obj * xdr_obj :=
  (* swap_base(other); std::swap(asize,xdr_other->asize) *)
  let a1 := mk_xo (xo_mem b) (xo_size b) (xo_pos b) (xo_asize b) (xo_in a) (xo_out a) in
  let b1 := mk_xo (xo_mem a) (xo_size a) (xo_pos a) (xo_asize a) (xo_in b) (xo_out b) in
  (* std::swap(input,xdr_other->input) *)
  let a2 := mk_xo (xo_mem a1) (xo_size a1) (xo_pos a1) (xo_asize a1) (xo_in b1) (xo_out a1) in
  let b2 := mk_xo (xo_mem b1) (xo_size b1) (xo_pos b1) (xo_asize b1) (xo_in a1) (xo_out b1) in
  (* std::swap(input,xdr_other->output) *)
  (mk_xo (xo_mem a2) (xo_size a2) (xo_pos a2) (xo_asize a2) (xo_out b2) (xo_out a2),
   mk_xo (xo_mem b2) (xo_size b2) (xo_pos b2) (xo_asize b2) (xo_in b2) (xo_in a2)).
(** pack_base.h 338: the default constructor of pack_t (no memory), indeterminate [asize], null streams, then swap *)
Definition xo_move (asize0 : nat) (x : xdr_obj) : xdr_obj * xdr_obj :=
  xo_swap (mk_xo 0 0 0 asize0 None None) x.
(** pack_base.h 339 *)
Definition xo_assign (a x : xdr_obj) : xdr_obj * xdr_obj := xo_swap a x.

(** what [append] and [popoff] (xdr_pack.cc 187-208) do with the memory: the filters of the library
    write to the stream if it encodes and to the variable if it decodes; a null stream is
    dereferenced *)
Inductive effect : Type := WritesMem (mem : nat) | WritesVar (from : nat) | Crash.
Definition filter (s : option stream) : effect :=
  match s with
  | None => Crash
  | Some s => match s_op s with Encode => WritesMem (s_mem s) | Decode => WritesVar (s_mem s) end
  end.
Definition xo_append (x : xdr_obj) : effect := filter (xo_in x).
Definition xo_popoff (x : xdr_obj) : effect := filter (xo_out x).
(** what the destructor frees, xdr_pack.cc 175-185, in mode [buf] *)
Definition xo_frees (x : xdr_obj) : list nat :=
  match xo_out x with Some s => [s_id s] | None => [] end ++
  match xo_in x with Some s => [s_id s] | None => [] end.

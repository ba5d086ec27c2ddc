(** * Model of the MPI buffers: classdescMP.h

    MPI itself is not modelled beyond what the standard says of the calls used:
    - MPI_Gather/Gatherv, MPI_Scatter/Scatterv and MPI_Bcast move the bytes they are given,
      provided every process calls them with matching counts and the blocks are large
      enough; anything else is undefined behaviour ([None]);
    - MPI_Send delivers messages between a pair of processes in order.
    One collective call is one function on the list of all processes' buffers (index =
    rank).  All processes use the same communicator.  MPIbuf_base is pack_t (no HETERO). *)
From Verif Require Import Base PackBuf_Model.

(** conversion of a size_t to int *)
Definition to_int (n : N) : Z :=
  let m := (Z.of_N n mod 2^32)%Z in if (m <? 2^31)%Z then m else (m - 2^32)%Z.
Definition fits (z : Z) : bool := ((- 2^31 <=? z) && (z <? 2^31))%Z.

(** ** MPIbuf: classdescMP.h 75-171 *)
(** [offs]: the table [offsets], [None] where it has not been initialised; [octr]: offsctr *)
Record mpibuf := mkmpi { mb : pack_buf; offs : list (option Z); octr : nat; cbuf : bool }.
(** constructor 102-107, for a communicator of [np] processes *)
Definition mpi_new (np : nat) : mpibuf := mkmpi pb_empty (Some 0%Z :: repeat None np) 1 false.
(** reset 158: reseti, reseto (tag is not modelled) *)
Definition mpi_reset (b : mpibuf) : mpibuf := mkmpi (mk_pb (pb_mem (mb b)) 0 0) (offs b) (octr b) (cbuf b).
(** operator<< of data: packraw *)
Definition mpi_pack (x : list ascii) (b : mpibuf) : option mpibuf :=
  match packraw x (mb b) with
  | Ok _ p => Some (mkmpi p (offs b) (octr b) (cbuf b))
  | _ => None
  end.
Fixpoint set_nth {A} (l : list A) (i : nat) (a : A) : list A :=
  match l, i with
  | [], _ => []
  | _ :: l', O => a :: l'
  | x :: l', S i' => x :: set_nth l' i' a
  end.
(** operator<<(mark) 165-166: a write outside the table is undefined *)
Definition mpi_mark (b : mpibuf) : option mpibuf :=
  if octr b <? length (offs b)
  then Some (mkmpi (mb b) (set_nth (offs b) (octr b) (Some (to_int (pb_size (mb b))))) (S (octr b)) (cbuf b))
  else None.
(** operator= 114-124, of different objects: the table is copied, the data is appended,
    const_buffer is left alone *)
Definition mpi_assign (np : nat) (b x : mpibuf) : option mpibuf :=
  match packraw (pb_data (mb x)) (mb b) with
  | Ok _ p => Some (mkmpi p (firstn (octr x) (offs x) ++ repeat None (S np - octr x)) (octr x) (cbuf b))
  | _ => None
  end.
(** copy constructor 108: a fresh base, then operator=; const_buffer is indeterminate ([cb]) *)
Definition mpi_copy (np : nat) (cb : bool) (x : mpibuf) : option mpibuf :=
  mpi_assign np (mkmpi pb_empty [] 0 cb) x.

(** ** Collective operations *)
Definition world := list mpibuf.
Definition setmb (b : mpibuf) (p : pack_buf) : mpibuf := mkmpi p (offs b) (octr b) (cbuf b).
Definition dflt : mpibuf := mkmpi pb_empty [] 0 false.

(** gather 321-358 *)
(** offsets[i+1]=offsets[i]+sizes[i], in int *)
Fixpoint offsets_of (o : Z) (sizes : list Z) : option (list Z) :=
  match sizes with
  | [] => Some [o]
  | s :: sizes' => if fits (o + s)
                   then match offsets_of (o + s) sizes' with Some l => Some (o :: l) | None => None end
                   else None
  end.
(** MPI_Gatherv at root: process i's [size()] bytes go to [rootdata+offsets[i]]; the counts
    on both sides have to agree and be non-negative, the blocks big enough *)
Fixpoint gatherv (mem : list ascii) (offsets sizes : list Z) (bufs : list pack_buf) : option (list ascii) :=
  match bufs, offsets, sizes with
  | [], _, _ => Some mem
  | b :: bufs', o :: offsets', s :: sizes' =>
      if ((0 <=? s) && (to_int (pb_size b) =? s) && (0 <=? o) && (o + s <=? Z.of_N (len mem))
          && (s <=? Z.of_N (len (pb_mem b))))%Z
      then gatherv (write_at mem (Z.to_N o) (firstn (Z.to_nat s) (pb_mem b))) offsets' sizes' bufs'
      else None
  | _, _, _ => None
  end.
Fixpoint after_gather (i root : nat) (rootblk : list ascii) (rootsz : N) (w : world) : world :=
  match w with
  | [] => []
  | b :: w' => (if i =? root
                then setmb b (mk_pb rootblk rootsz 0)                          (* 354 *)
                else setmb b (mk_pb (pb_mem (mb b)) 0 (pb_pos (mb b))))        (* 355 reseti *)
               :: after_gather (S i) root rootblk rootsz w'
  end.
(** [junk]: the contents of freshly allocated memory *)
Definition gather (junk : list ascii) (root : nat) (w : world) : option world :=
  let bufs := map mb w in
  if forallb (fun b => negb (cbuf b)) w then
    let sizes := map (fun b => to_int (pb_size b)) bufs in                     (* 334-335 *)
    match offsets_of 0 sizes with
    | None => None
    | Some o =>
        let rootsz := last o 0%Z in
        if (rootsz <? 0)%Z then None else
        let blk := realloc_blk junk [] (Z.to_N rootsz) in                      (* 341 *)
        match gatherv blk o sizes bufs with
        | None => None
        | Some blk' => Some (after_gather 0 root blk' (Z.to_N rootsz) w)
        end
    end
  else if forallb cbuf w then
    let r := mb (nth root w dflt) in
    let sz := to_int (pb_size r) in
    let blk := realloc_blk junk [] ((pb_size r * len w) mod W)%N in            (* 350 *)
    match gatherv blk (map (fun i => Z.of_nat i * sz)%Z (seq 0 (length w))) (map (fun _ => sz) w) bufs with
    | None => None
    | Some blk' => Some (after_gather 0 root blk' (if (sz <? 0)%Z then (2^64 - Z.to_N (- sz))%N else Z.to_N sz) w) (* 349, 354 *)
    end
  else None.                                             (* mismatched collective calls *)

(** bcast 305-319 *)
Definition bcast_size (root : nat) (w : world) : option N :=
  let n := pb_size (mb (nth root w dflt)) in
  if forallb (fun b => negb (cbuf b)) w then
    let z := to_int n in if (z <? 0)%Z then None else Some (Z.to_N z)
  else if forallb cbuf w then
    if forallb (fun b => (pb_size (mb b) =? n)%N) w && (0 <=? to_int n)%Z then Some n else None
  else None.
Definition bcast (root : nat) (w : world) : option world :=
  match bcast_size root w with
  | None => None
  | Some n =>
      let r := mb (nth root w dflt) in
      if (n <=? len (pb_mem r))%N
      then Some (map (fun ib => let '(i, b) := ib in
                                if i =? root then setmb b (mk_pb (pb_mem r) n 0)
                                else setmb b (mk_pb (firstn (N.to_nat n) (pb_mem r)) n 0))
                     (combine (seq 0 (length w)) w))
      else None
  end.

(** scatter 360-387 *)
(** sizes[i]=offsets[i+1]-offsets[i], and the pairs (offset, size) *)
Fixpoint sections (np : nat) (o : list (option Z)) : option (list (Z * Z)) :=
  match np, o with
  | O, _ => Some []
  | S np', Some a :: ((Some b :: _) as o') =>
      if fits (b - a) then match sections np' o' with Some l => Some ((a, b - a)%Z :: l) | None => None end
      else None
  | _, _ => None
  end.
(** MPI_Scatterv: a process that got a negative size does not take part in the second
    collective; the others need their section to lie within root's block *)
Definition chunk_of (mem : list ascii) (s : Z * Z) : option (list ascii) :=
  let '(o, n) := s in
  if ((0 <=? n) && (0 <=? o) && (o + n <=? Z.of_N (len mem)))%Z
  then Some (read_at mem (Z.to_N o) (Z.to_N n)) else None.
Fixpoint chunks_of (mem : list ascii) (l : list (Z * Z)) : option (list (list ascii)) :=
  match l with
  | [] => Some []
  | s :: l' => match chunk_of mem s, chunks_of mem l' with
               | Some c, Some cs => Some (c :: cs)
               | _, _ => None
               end
  end.
(** the block received has exactly the size of the section, the read position is kept *)
Definition receive (b : mpibuf) (c : list ascii) : mpibuf := setmb b (mk_pb c (len c) (pb_pos (mb b))).
(** 385: offsets[0..np-1]=0; offsctr is left alone *)
Definition zero_offs (np : nat) (b : mpibuf) : mpibuf :=
  mkmpi (mb b) (repeat (Some 0%Z) (Nat.min np (length (offs b))) ++ skipn np (offs b)) (octr b) (cbuf b).
Fixpoint map2 {A B C} (f : A -> B -> C) (l : list A) (m : list B) : list C :=
  match l, m with a :: l', b :: m' => f a b :: map2 f l' m' | _, _ => [] end.
Definition scatter (root : nat) (w : world) : option world :=
  let r := nth root w dflt in
  match sections (length w) (offs r) with
  | None => None
  | Some l => match chunks_of (pb_mem (mb r)) l with
              | None => None
              | Some cs => let w' := map2 receive w cs in
                           Some (set_nth w' root (zero_offs (length w) (nth root w' dflt)))
              end
  end.

(** ** Point to point: send_recv 281-303 *)
Record msg := mkmsg { msrc : Z; mtag : Z; mdata : list ascii }.
(** MPI_ANY_SOURCE, MPI_ANY_TAG *)
Definition ANY : Z := (-1)%Z.
Definition matches (p t : Z) (m : msg) : bool :=
  (((p =? ANY) || (p =? msrc m)) && ((t =? ANY) || (t =? mtag m)))%Z.
(** MPI_Probe and MPI_Recv take the first matching message of the queue *)
Fixpoint take_match (p t : Z) (q : list msg) : option (msg * list msg) :=
  match q with
  | [] => None
  | m :: q' => if matches p t m then Some (m, q')
               else match take_match p t q' with Some (r, q'') => Some (r, m :: q'') | None => None end
  end.
Inductive srres :=
| SRBlock                                   (* waits for a message *)
| SRTrunc                                   (* MPI_ERR_TRUNCATE *)
| SROk (p : pack_buf) (src tag : Z) (q : list msg).
(** with the messages that will arrive at this process, [junk]: uninitialised memory *)
Definition send_recv (junk : list ascii) (sendtag source recvtag : Z) (q : list msg) : srres :=
  match take_match source sendtag q with                                      (* 291 MPI_Probe *)
  | None => SRBlock
  | Some (pm, _) =>
      let n := len (mdata pm) in
      match take_match source recvtag q with                                  (* 295 MPI_Recv *)
      | None => SRBlock
      | Some (m, q') =>
          if (n <? len (mdata m))%N then SRTrunc
          else SROk (mk_pb (write_at (realloc_blk junk [] n) 0 (mdata m)) n 0) (msrc m) (mtag m) q'
      end
  end.

(** ** Master and slaves: MPIslave 398-475 *)
(** Requests and replies are opaque; [run r] is the reply of the slave's method to [r],
    [None] if the method leaves tag 0 and so sends nothing (method, 459-467).  The channels
    are FIFO.  [sent i], [got i]: history of what was sent to and received from slave [i]. *)
Section Slave.
Variables Req Rep : Type.
Variable run : Req -> option Rep.
Variable np : nat.                    (* nprocs(); slaves are 1..np-1 *)
Record sys := mksys { idle : list nat; inbox : nat -> list Req; outbox : nat -> list Rep;
                      sent : nat -> list Req; got : nat -> list Rep }.
Definition fset {A} (f : nat -> A) (i : nat) (a : A) : nat -> A := fun j => if j =? i then a else f j.
(** init 445-446 *)
Definition sys0 : sys := mksys (seq 1 (np - 1)) (fun _ => []) (fun _ => []) (fun _ => []) (fun _ => []).
Inductive ev :=
| EExec (r : Req)            (* exec 421 *)
| ERun (i : nat)             (* the slave loop takes a request, 440-442, and answers *)
| EGet (i : nat)             (* get_returnv 423: the message received came from i *)
| EBcast (r c : Req).        (* bcast(c) 470-475, with r the request in *this: the loop sends
                                data() of *this, not of c *)
(** [SStuck]: the event cannot happen (no message); [SUndef]: idle.back() of an empty vector *)
Inductive sres := SOk (s : sys) | SUndef | SStuck.
Definition send_to (s : sys) (i : nat) (r : Req) : sys :=
  mksys (idle s) (fset (inbox s) i (inbox s i ++ [r])) (outbox s) (fset (sent s) i (sent s i ++ [r])) (got s).
Definition sstep (s : sys) (e : ev) : sres :=
  match e with
  | EExec r => match idle s with
               | [] => SUndef
               | _ => let s' := send_to s (last (idle s) 0) r in
                      SOk (mksys (removelast (idle s')) (inbox s') (outbox s') (sent s') (got s'))
               end
  | ERun i => match inbox s i with
              | [] => SStuck
              | r :: q => SOk (mksys (idle s) (fset (inbox s) i q)
                                     (match run r with
                                      | Some a => fset (outbox s) i (outbox s i ++ [a])
                                      | None => outbox s
                                      end) (sent s) (got s))
              end
  | EGet i => match outbox s i with
              | [] => SStuck
              | a :: q => SOk (mksys (idle s ++ [i]) (inbox s) (fset (outbox s) i q) (sent s)
                                     (fset (got s) i (got s i ++ [a])))
              end
  | EBcast r _ => SOk (fold_left (fun s i => send_to s i r) (seq 1 (np - 1)) s)
  end.
Fixpoint srun (es : list ev) (s : sys) : sres :=
  match es with
  | [] => SOk s
  | e :: es' => match sstep s e with SOk s' => srun es' s' | r => r end
  end.
(** all_idle 425 *)
Definition all_idle (s : sys) : bool := length (idle s) =? np - 1.
End Slave.
Arguments mksys {Req Rep} idle inbox outbox sent got.
Arguments idle {Req Rep} s.
Arguments inbox {Req Rep} s.
Arguments outbox {Req Rep} s.
Arguments sent {Req Rep} s.
Arguments got {Req Rep} s.
Arguments EExec {Req} r.
Arguments ERun {Req} i.
Arguments EGet {Req} i.
Arguments EBcast {Req} r c.
Arguments SOk {Req Rep} s.
Arguments SUndef {Req Rep}.
Arguments SStuck {Req Rep}.

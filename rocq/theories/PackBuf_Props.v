(** * Properties of the memory buffer: C01, C02, C03, C08, C19 *)
From Verif Require Import Base PackBuf_Model PackBuf_Spec PackBuf_Proofs.

(** C01: any interleaving of packs and unpacks is first-in first-out. *)
Theorem C01_fifo : forall os,
  forallb is_pack_or_unpack os = true ->
  forallb (sane_size (len (packed_bytes os))) os = true ->
  (len (packed_bytes os) < W)%N ->
  exists rs st', run pb_empty os = (rs, Some st') /\
    pb_data st' = packed_bytes os /\
    pb_size st' = len (packed_bytes os) /\
    pb_pos st' = len (returned_bytes rs) /\
    returned_bytes rs = firstn (N.to_nat (pb_pos st')) (packed_bytes os).
Proof. exact fifo. Qed.
Print Assumptions C01_fifo.
Example C01_fifo_ex :
  let os := [OPackRaw (bs "hello"); OUnpackRaw 2; OUnpackRaw 9; OAppend (bs "wo"); OPopoff 4] in
  forallb is_pack_or_unpack os = true /\
  forallb (sane_size (len (packed_bytes os))) os = true /\
  (len (packed_bytes os) < W)%N /\
  run pb_empty os =
    ([RUnit; RBytes (bs "he"); RThrow PackError; RUnit; RBytes (bs "llow")],
     Some (mk_pb (bs "hellowo") 7 6)).
Proof. vm_compute. repeat split. Qed.

(** C02/C03: any history of calls, each within its guard, behaves like the byte queue
    of PackBuf_Spec, and never reaches undefined behaviour. *)
Theorem C03_queue_refinement : forall sz junk os,
  (sz < W)%N -> ops_ok (pb_new sz junk) os ->
  exists rs st', run (pb_new sz junk) os = (rs, Some st') /\
    q_run (q_of (pb_new sz junk)) os rs (q_of st') /\
    len (pb_data st') = pb_size st'.
Proof.
  intros sz junk os Hs Ho.
  destruct (run_refines os _ (inv_new sz junk Hs) Ho) as (rs & st' & E & I & Q).
  exists rs, st'. split; [exact E|]. split; [exact Q|]. apply pb_data_len, I.
Qed.
Print Assumptions C03_queue_refinement.
(** the same with the guard stated on the abstract queue alone *)
Theorem C03_queue_refinement_abs : forall sz junk os,
  (sz < W)%N -> q_ops_ok (q_of (pb_new sz junk)) os ->
  exists rs st', run (pb_new sz junk) os = (rs, Some st') /\
    q_run (q_of (pb_new sz junk)) os rs (q_of st') /\
    len (pb_data st') = pb_size st'.
Proof.
  intros sz junk os Hs Ho.
  destruct (run_refines_q _ os (inv_new sz junk Hs) Ho) as (rs & st' & E & I & Q).
  exists rs, st'. split; [exact E|]. split; [exact Q|]. apply pb_data_len, I.
Qed.
Print Assumptions C03_queue_refinement_abs.
Example C03_queue_refinement_ex :
  let os := [OPackRaw (bs "abcdef"); OSeeki (-2); OUnpackRaw 3; OSeeko (-1);
             OUnpackRaw 2; OResize 6 (bs "xyz"); OUnpackRaw 2; OReseto; OClear; OUnpackRaw 1] in
  ops_ok (pb_new 0 []) os /\
  fst (run (pb_new 0 []) os) =
    [RUnit; RUnit; RBytes (bs "abc"); RUnit; RBytes (bs "cd"); RUnit; RBytes (bs "ef");
     RUnit; RUnit; RThrow PackError].
Proof.
  split; [|vm_compute; reflexivity].
  repeat (split; [vm_compute; try (repeat split; intro; discriminate); try reflexivity|]);
    exact I.
Qed.

(** C02: in every state reached by a guarded history a read of [s] bytes succeeds iff
    [pos()+s <= size()], returning the bytes at the cursor; otherwise it throws
    [pack_error] and the buffer is unchanged. *)
Theorem C02_read_past_end : forall sz junk os,
  (sz < W)%N -> ops_ok (pb_new sz junk) os ->
  exists rs st, run (pb_new sz junk) os = (rs, Some st) /\
  forall s, (pb_pos st + s < W)%N ->
    ((pb_pos st + s <= pb_size st)%N ->
       exists x, unpackraw s st = Ok x (mk_pb (pb_mem st) (pb_size st) (pb_pos st + s)%N) /\
         exists pre post, pb_data st = pre ++ x ++ post /\ len pre = pb_pos st /\ len x = s) /\
    ((pb_size st < pb_pos st + s)%N -> unpackraw s st = Throw PackError st) /\
    popoff s st = unpackraw s st.
Proof.
  intros sz junk os Hs Ho.
  destruct (run_refines os _ (inv_new sz junk Hs) Ho) as (rs & st' & E & I & Q).
  exists rs, st'. split; [exact E|]. intros s Hw. now apply read_iff.
Qed.
Print Assumptions C02_read_past_end.
Example C02_read_past_end_ex :
  ops_ok (pb_new 0 []) [OPackRaw (bs "abc"); OUnpackRaw 1] /\
  exists st, run (pb_new 0 []) [OPackRaw (bs "abc"); OUnpackRaw 1] =
               ([RUnit; RBytes (bs "a")], Some st) /\
     (exists st', unpackraw 2 st = Ok (bs "bc") st') /\ unpackraw 3 st = Throw PackError st.
Proof.
  split; [cbn; repeat split|]. eexists; split; [vm_compute; reflexivity|].
  split; [eexists; vm_compute; reflexivity | vm_compute; reflexivity].
Qed.

(** C02 without the guard on the length is false: with one byte packed and read, a
    request of 2^64-1 bytes passes the check (the sum wraps to 0) and reads out of
    bounds. *)
Theorem C02_huge_length_refuted :
  exists st s, run pb_empty [OPackRaw (bs "a"); OUnpackRaw 1] =
                 ([RUnit; RBytes (bs "a")], Some st) /\
    (pb_size st < pb_pos st + s)%N /\ (s < W)%N /\
    unpackraw s st = UB /\ popoff s st = UB.
Proof.
  exists (mk_pb (bs "a") 1 1), (W - 1)%N. repeat split; vm_compute; reflexivity.
Qed.
Print Assumptions C02_huge_length_refuted.

(** C02: [resize(0)] throws, and afterwards [size()] still claims data that has been
    freed: the next read is undefined behaviour. *)
Theorem C02_resize_zero_refuted :
  exists st, run pb_empty [OPackRaw (bs "ab"); OResize 0 []] =
               ([RUnit; RThrow BadAlloc], Some st) /\
    pb_size st = 2%N /\ unpackraw 1 st = UB.
Proof. eexists; repeat split; vm_compute; reflexivity. Qed.
Print Assumptions C02_resize_zero_refuted.

(** C03: a seek before the beginning is accepted silently and makes a later read
    undefined. *)
Theorem C03_wild_seeko_refuted :
  exists os st, run pb_empty [OPackRaw (bs "abcd"); OSeeko (-1)] = (os, Some st) /\
    os = [RUnit; RUnit] /\ unpackraw 2 st = UB.
Proof. eexists _, _; repeat split; vm_compute; reflexivity. Qed.
Print Assumptions C03_wild_seeko_refuted.
Theorem C03_wild_seeki_refuted :
  exists os st, run pb_empty [OPackRaw (bs "abcd"); OSeeki (-5)] = (os, Some st) /\
    os = [RUnit; RUnit] /\ unpackraw 5 st = UB.
Proof. eexists _, _; repeat split; vm_compute; reflexivity. Qed.
Print Assumptions C03_wild_seeki_refuted.

(** C08: the sign of [cmp] is a strict total order on contents (size first, then
    bytes), and [==]/[!=] decide equality of contents, for every conforming memcmp. *)
Theorem C08_cmp_order : forall mag sx jx ox rx x sy jy oy ry y,
  (sx < W)%N -> (sy < W)%N ->
  ops_ok (pb_new sx jx) ox -> ops_ok (pb_new sy jy) oy ->
  run (pb_new sx jx) ox = (rx, Some x) -> run (pb_new sy jy) oy = (ry, Some y) ->
  ((pb_cmp mag x y < 0)%Z <-> size_first_lt (pb_data x) (pb_data y)) /\
  ((pb_cmp mag x y = 0)%Z <-> pb_data x = pb_data y) /\
  ((0 < pb_cmp mag x y)%Z <-> size_first_lt (pb_data y) (pb_data x)) /\
  (pb_eq mag x y = true <-> pb_data x = pb_data y) /\
  (pb_ne mag x y = true <-> pb_data x <> pb_data y).
Proof.
  intros mag sx jx ox rx x sy jy oy ry y Hx Hy Ox Oy Ex Ey.
  destruct (run_refines ox _ (inv_new sx jx Hx) Ox) as (r1 & x1 & E1 & I1 & _).
  destruct (run_refines oy _ (inv_new sy jy Hy) Oy) as (r2 & y1 & E2 & I2 & _).
  assert (x1 = x) by congruence. assert (y1 = y) by congruence. subst.
  destruct (cmp_spec mag x y I1 I2) as (A & B & C). repeat split; try tauto;
    apply (eq_ne_spec mag x y I1 I2).
Qed.
Print Assumptions C08_cmp_order.
Theorem C08_order_is_strict_total :
  (forall x, ~ size_first_lt x x) /\
  (forall x y z, size_first_lt x y -> size_first_lt y z -> size_first_lt x z) /\
  (forall x y, size_first_lt x y \/ x = y \/ size_first_lt y x).
Proof.
  exact (conj size_first_lt_irrefl (conj size_first_lt_trans size_first_lt_total)).
Qed.
Print Assumptions C08_order_is_strict_total.
(** [<] and [>] agree with that order provided memcmp returns only -1, 0, 1. *)
Theorem C08_operators_partial : forall mag sx jx ox rx x sy jy oy ry y,
  (forall a b, mag a b = 1%positive) ->
  (sx < W)%N -> (sy < W)%N ->
  ops_ok (pb_new sx jx) ox -> ops_ok (pb_new sy jy) oy ->
  run (pb_new sx jx) ox = (rx, Some x) -> run (pb_new sy jy) oy = (ry, Some y) ->
  (pb_lt mag x y = true <-> size_first_lt (pb_data x) (pb_data y)) /\
  (pb_gt mag x y = true <-> size_first_lt (pb_data y) (pb_data x)).
Proof.
  intros mag sx jx ox rx x sy jy oy ry y Hm Hx Hy Ox Oy Ex Ey.
  destruct (run_refines ox _ (inv_new sx jx Hx) Ox) as (r1 & x1 & E1 & I1 & _).
  destruct (run_refines oy _ (inv_new sy jy Hy) Oy) as (r2 & y1 & E2 & I2 & _).
  assert (x1 = x) by congruence. assert (y1 = y) by congruence. subst.
  now apply lt_gt_unit.
Qed.
Print Assumptions C08_operators_partial.
Definition ex_buf (s : string) : pack_buf := mk_pb (bs s) (len (bs s)) 0.
Example C08_ex :
  run (pb_new 0 []) [OPackRaw (bs "ab")] = ([RUnit], Some (ex_buf "ab")) /\
  run (pb_new 0 []) [OPackRaw (bs "ac")] = ([RUnit], Some (ex_buf "ac")) /\
  ops_ok (pb_new 0 []) [OPackRaw (bs "ab")] /\ ops_ok (pb_new 0 []) [OPackRaw (bs "ac")] /\
  pb_lt (fun _ _ => 1%positive) (ex_buf "ab") (ex_buf "ac") = true.
Proof. vm_compute. repeat split. Qed.
(** With a memcmp that returns the byte difference (allowed by the C standard), three
    distinct relations fail at once: none of [<], [>], [==] holds. *)
Theorem C08_trichotomy_refuted : exists mag x y,
  pb_data x <> pb_data y /\
  pb_lt mag x y = false /\ pb_gt mag x y = false /\ pb_eq mag x y = false.
Proof.
  exists (fun a b => match (b - a)%N with N.pos p => p | N0 => 1%positive end),
    (ex_buf "a"), (ex_buf "c"). repeat split; try (vm_compute; reflexivity). discriminate.
Qed.
Print Assumptions C08_trichotomy_refuted.
(** The documentation promises the lexicographic order; "b" < "aa" shows it is not. *)
Theorem C08_lexicographic_refuted : exists mag x y,
  bytes_lt (pb_data y) (pb_data x) /\ (pb_cmp mag x y < 0)%Z /\ pb_lt mag x y = true.
Proof.
  exists (fun _ _ => 1%positive), (ex_buf "b"), (ex_buf "aa"). vm_compute. auto.
Qed.
Print Assumptions C08_lexicographic_refuted.

(** C19: swap exchanges contents, position and pointer mode; twice restores; moving
    into a new object preserves contents, position and pointer mode. *)
Theorem C19_swap_partial : forall a b u,
  let '(a', b') := swap_base a b in
  po_buf a' = po_buf b /\ po_buf b' = po_buf a /\
  po_ptr_flag a' = po_ptr_flag b /\ po_ptr_flag b' = po_ptr_flag a /\
  swap_base a' b' = (a, b) /\ move_assign a b = (a', b') /\
  po_buf (fst (move_ctor u a)) = po_buf a /\
  po_ptr_flag (fst (move_ctor u a)) = po_ptr_flag a.
Proof. intros [a f r] [b g s] u. cbn. repeat split. Qed.
Print Assumptions C19_swap_partial.
(** [recur_max] is left behind by [swap], and a moved-to object gets an indeterminate
    one. *)
Theorem C19_swap_refuted : exists a b, fst (swap_base a b) <> b.
Proof. exists (mk_po pb_empty 0 500), (mk_po pb_empty 0 100). discriminate. Qed.
Print Assumptions C19_swap_refuted.
Theorem C19_move_refuted : exists u a, fst (move_ctor u a) <> a.
Proof. exists (mk_po pb_empty 0 7), (mk_po pb_empty 0 500). discriminate. Qed.
Print Assumptions C19_move_refuted.
(** A moved-from buffer is not empty: it has no memory but an indeterminate size, so
    reading from it is undefined. *)
Theorem C19_moved_from_refuted : exists u a,
  pb_data (po_buf a) = bs "abc" /\ unpackraw 1 (po_buf (snd (move_ctor u a))) = UB.
Proof.
  exists (mk_po (mk_pb [] 5 0) 0 0), (mk_po (mk_pb (bs "abc") 3 0) 0 500).
  split; reflexivity.
Qed.
Print Assumptions C19_moved_from_refuted.

(** C02: [while (buf) ...] ends exactly when nothing is left: the conversion to bool says
    whether the next byte can be read, in any state reached by a history of calls within
    their guards. *)
Theorem C02_more : forall sz junk os rs st,
  (sz < W)%N -> ops_ok (pb_new sz junk) os ->
  run (pb_new sz junk) os = (rs, Some st) -> (pb_pos st + 1 < W)%N ->
  (pb_more st = true <-> exists c st', unpackraw 1 st = Ok [c] st') /\
  (pb_more st = false <-> unpackraw 1 st = Throw PackError st).
Proof.
  intros sz junk os rs st Hs Ho E Hw.
  destruct (run_refines os _ (inv_new sz junk Hs) Ho) as (rs' & st' & E' & I & _).
  assert (st' = st) by congruence. subst st'. unfold pb_more.
  destruct (pb_pos st <? pb_size st)%N eqn:L.
  - pose proof (unpackraw_ok st 1 I ltac:(lia)) as U. rewrite U.
    assert (Ln : len (read_at (pb_data st) (pb_pos st) 1) = 1%N).
    { pose proof (pb_data_len st ltac:(apply I)) as D. unfold read_at, len in *. rewrite firstn_length, skipn_length. lia. }
    destruct (read_at (pb_data st) (pb_pos st) 1) as [|c [|d r]] eqn:R; cbn in Ln; try (unfold len in Ln; cbn in Ln; lia).
    split; split; intros; try discriminate; eauto.
  - pose proof (unpackraw_end st 1 I Hw ltac:(lia)) as U. rewrite U.
    split; split; intros H; try discriminate; auto. destruct H as (? & ? & H). discriminate.
Qed.
Print Assumptions C02_more.
Example C02_more_ex :
  let os := [OPackRaw (bs "ab"); OUnpackRaw 2] in
  ops_ok (pb_new 0 []) os /\
  exists rs st, run (pb_new 0 []) os = (rs, Some st) /\ pb_more st = false /\
    unpackraw 1 st = Throw PackError st.
Proof.
  split.
  - repeat (split; [vm_compute; try (repeat split; intro; discriminate); try reflexivity|]); exact Logic.I.
  - eexists. eexists. split; [vm_compute; reflexivity|]. split; reflexivity.
Qed.

(** C03: outside the guard.  Appending nothing to an empty buffer throws [bad_alloc] (the
    reallocation to no bytes returns null), whereas [packraw] of nothing does not. *)
Theorem C03_append_nothing_refuted : exists st,
  pb_data st = [] /\ append [] st = Throw BadAlloc st /\ packraw [] st = Ok tt st.
Proof. exists pb_empty. repeat split. Qed.
Print Assumptions C03_append_nothing_refuted.

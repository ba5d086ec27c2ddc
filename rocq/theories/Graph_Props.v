(** * Properties of pointer serialisation: C12, C13, C14 *)
From Verif Require Import Base Base_Proofs Graph_Model Graph_Spec Graph_Proofs.

(** ** C12: trees *)
(** Any finite tree, of any shape and depth, comes back, and exactly the bytes written are
    consumed, provided the destination pointer and the pointer members of newly constructed
    nodes are null to begin with (missing: see the two refutations). *)
Theorem C12_tree_partial : forall layout t rest,
  tree_ok layout t ->
  exists fuel, forall more, tup layout TNull (fuel + more) TNull (tpk t ++ rest) = Some (t, rest).
Proof.
  intros layout t rest H. destruct (proj1 (tree_roundtrip_all layout) t H) as (fuel & F).
  exists fuel. intro more. apply (tup_mono_le layout TNull fuel (fuel + more) ltac:(lia)).
  rewrite F. destruct t; reflexivity.
Qed.
Example C12_tree_example :
  let layout := [KData 1; KPtr; KPtr] in
  let leaf b := TNode (TFData [ascii_of_nat b] (TFPtr TNull (TFPtr TNull TFNil))) in
  let t := TNode (TFData [ascii_of_nat 7] (TFPtr (leaf 8) (TFPtr TNull TFNil))) in
  tree_ok layout t /\ tup layout TNull 20 TNull (tpk t) = Some (t, []).
Proof.
  split; [|vm_compute; reflexivity].
  apply tok_node. apply (fok_data _ [ascii_of_nat 7]). apply fok_ptr; [|apply fok_ptr; constructor].
  apply tok_node. apply (fok_data _ [ascii_of_nat 8]). repeat constructor.
Qed.

(** A null pointer packed and unpacked over a destination that is not null leaves the
    destination as it was: pack_graph.h 44-56 has no else branch. *)
Theorem C12_destination_kept_refuted : exists layout t old,
  tree_ok layout t /\ forall fuel rest r, tup layout TNull fuel old (tpk t ++ rest) = Some r -> fst r <> t.
Proof.
  exists [], TNull, (TNode TFNil). split; [constructor|].
  intros [|fuel] rest r; [discriminate|]. rewrite tup_eq. cbn [tpk].
  rewrite get32_put by (cbn; lia). cbn [N.eqb]. intro H. injection H as <-. discriminate.
Qed.
(** The same for null members of nodes inside the tree, when the node class does not
    initialise its pointer members: they are left indeterminate. *)
Theorem C12_members_indeterminate_refuted : exists layout t garbage r,
  tree_ok layout t /\ tup layout (TOther garbage) 10 TNull (tpk t) = Some r /\ fst r <> t.
Proof.
  exists [KPtr], (TNode (TFPtr TNull TFNil)), 12345%N. eexists. split; [repeat constructor|].
  split; [vm_compute; reflexivity|]. discriminate.
Qed.

(** ** C13, C14: graphs *)
(** The object graph may have any shape: sharing, cycles, any depth, at most 2^31-1 objects,
    all pointers of one C++ type.  Packing terminates for every recursion limit other than 1,
    and unpacking the bytes yields an isomorphic graph made of new objects; nothing that
    existed before is touched, and exactly the bytes written are consumed.  The receiving
    buffer's own recursion limit and the previous value of the destination do not matter. *)
Theorem C14_graph_partial : forall h ns ty layout root recur_max hp0 old,
  graph_ok h ns ty layout -> ptr_in ns root ->
  (recur_max < 2^32)%N -> recur_max <> 1%N ->
  exists fuel out hp' root',
    pack_root h recur_max fuel ty root = Some out /\
    (forall rm0 rest, unpack_root layout fuel ty rm0 (out ++ rest) hp0 old = Some (hp', root', rest)) /\
    firstn (length hp0) hp' = hp0 /\
    iso h root hp' root' (length hp0).
Proof.
  intros h ns ty layout root rmx hp0 old HG Hp Hrm H1.
  destruct (pack_terminates h rmx ns ty layout HG H1 root Hp) as (fuel & out & sg & E).
  assert (P : pack_root h rmx fuel ty root = Some out) by (unfold pack_root, gp_init; now rewrite E).
  destruct (graph_partial h rmx ns ty layout hp0 root fuel out Hrm HG Hp P old) as (hp' & r' & A & B & C).
  exists fuel, out, hp', r'. auto.
Qed.
(** Whatever was packed successfully is read back: the fuel of the model plays no role. *)
Theorem C13_graph_partial : forall h ns ty layout root recur_max hp0 old fuel out,
  graph_ok h ns ty layout -> ptr_in ns root -> (recur_max < 2^32)%N ->
  pack_root h recur_max fuel ty root = Some out ->
  exists hp' root',
    (forall rm0 rest, unpack_root layout fuel ty rm0 (out ++ rest) hp0 old = Some (hp', root', rest)) /\
    firstn (length hp0) hp' = hp0 /\
    iso h root hp' root' (length hp0).
Proof.
  intros h ns ty layout root rmx hp0 old fuel out HG Hp Hrm P.
  exact (graph_partial h rmx ns ty layout hp0 root fuel out Hrm HG Hp P old).
Qed.

(** three objects: 0 -> 1,2; 1 -> 2,0; 2 -> null,2 *)
Definition ex_h : heap := fun n => match n with
  | 0%nat => Some [FData [ascii_of_nat 10]; FPtr 0 (Some 1%nat); FPtr 0 (Some 2%nat)]
  | 1%nat => Some [FData [ascii_of_nat 11]; FPtr 0 (Some 2%nat); FPtr 0 (Some 0%nat)]
  | 2%nat => Some [FData [ascii_of_nat 12]; FPtr 0 None; FPtr 0 (Some 2%nat)]
  | _ => None end.
Definition ex_layout : nat -> list gkind := fun _ => [GData 1; GPtr 0; GPtr 0].
Lemma ex_ok : graph_ok ex_h [0;1;2]%nat 0 ex_layout.
Proof.
  split; [|split; [vm_compute; reflexivity|]].
  - repeat (constructor; [cbn; intuition discriminate|]). constructor.
  - intros n [<-|[<-|[<-|[]]]]; eexists; (split; [reflexivity|]);
      repeat (constructor; [cbn; tauto|]); constructor.
Qed.
Example C13_graph_example :
  graph_ok ex_h [0;1;2]%nat 0 ex_layout /\
  match pack_root ex_h 2 100 0 (Some 0%nat) with
  | Some out => unpack_root ex_layout 100 0 77 out [] None
     = Some ([[FData [ascii_of_nat 10]; FPtr 0 (Some 2%nat); FPtr 0 (Some 1%nat)];
              [FData [ascii_of_nat 12]; FPtr 0 None; FPtr 0 (Some 1%nat)];
              [FData [ascii_of_nat 11]; FPtr 0 (Some 1%nat); FPtr 0 (Some 0%nat)]], Some 0%nat, [])
  | None => False
  end.
Proof.
  split; [exact ex_ok|vm_compute; reflexivity].
Qed.

(** With recur_max = 1 every pointer is postponed, the restart loop of pack_graph
    (pack_graph.h 110-117) pops it and postpones it again: packing never terminates. *)
Theorem C14_recur_max_one_refuted : exists h ns ty layout root,
  graph_ok h ns ty layout /\ ptr_in ns root /\ forall fuel, pack_root h 1 fuel ty root = None.
Proof.
  exists ex_h, [0;1;2]%nat, 0%nat, ex_layout, (Some 0%nat).
  split; [exact ex_ok|]. split; [cbn; auto|]. intro fuel.
  assert (H : forall fuel,
    (forall p out st, gp_level (st 0%nat) = 0%N -> pg ex_h 1 fuel 0 p (out, st) = None) /\
    (forall out st, gp_level (st 0%nat) = 0%N -> gp_restart (st 0%nat) <> [] ->
       pg_drain ex_h 1 fuel 0 (out, st) = None)).
  { induction fuel0 as [|f [IH1 IH2]]; [split; reflexivity|]. split.
    - intros p out st L. rewrite pg_eq, L. unfold pg_mid. cbn [gp_level gp_map gp_restart].
      replace ((0 + 1) mod 2^32)%N with 1%N by reflexivity. cbn [N.eqb Pos.eqb pg_post].
      rewrite upd_ty_same. cbn [gp_level gp_map gp_restart].
      replace ((1 + (2^32 - 1)) mod 2^32)%N with 0%N by reflexivity. cbn [N.eqb].
      apply IH2; rewrite upd_ty_same; [reflexivity|discriminate].
    - intros out st L R. rewrite pg_drain_eq. destruct (gp_restart (st 0%nat)) as [|p rs]; [congruence|].
      rewrite IH1; [reflexivity|]. now rewrite upd_ty_same. }
  unfold pack_root. now rewrite (proj1 (H fuel)).
Qed.

(** Two pointers of type B in an object of type A that point to the same B: the statics of
    pack_graph<B*> are back at level 0 after each of them, so their map is cleared in between
    and the shared object is duplicated. *)
Definition mix_h : heap := fun n => match n with
  | 0%nat => Some [FPtr 1 (Some 1%nat); FPtr 1 (Some 1%nat)]
  | 1%nat => Some [FData [ascii_of_nat 5]]
  | _ => None end.
Definition mix_layout : nat -> list gkind := fun ty => match ty with
  | 0%nat => [GPtr 1; GPtr 1] | _ => [GData 1] end.
Theorem C13_mixed_types_refuted : exists h layout root recur_max fuel out hp' root' rest,
  pack_root h recur_max fuel 0 root = Some out /\
  unpack_root layout fuel 0 recur_max out [] None = Some (hp', root', rest) /\
  ~ iso h root hp' root' 0.
Proof.
  exists mix_h, mix_layout, (Some 0%nat), 1000%N, 30%nat. eexists _, _, _, _.
  split; [vm_compute; reflexivity|]. split; [vm_compute; reflexivity|].
  intros (f & _ & H1 & _ & H2). cbn in H1. injection H1 as H1.
  specialize (H2 0%nat _ (reach_root _ _ _ eq_refl) eq_refl). rewrite <- H1 in H2. cbn in H2.
  injection H2 as H2 H3. congruence.
Qed.

Print Assumptions C12_tree_partial.
Print Assumptions C12_destination_kept_refuted.
Print Assumptions C12_members_indeterminate_refuted.
Print Assumptions C13_graph_partial.
Print Assumptions C13_mixed_types_refuted.
Print Assumptions C14_graph_partial.
Print Assumptions C14_recur_max_one_refuted.

(** * Further properties of the scopes of enumerations and of errors of the parser *)
From Verif Require Import Base SMap Desc_Model PyScope_Model PyScope_Props PyEnum_Model.
From Verif Require Parse_Model ClassParse_Model.
Import ListNotations.

(** ** C111: the scope of an enumeration *)
Lemma scopes_all : forall l s, scopes (defineAll l s) = fold_left set_scope (map fst l) (scopes s).
Proof.
  induction l as [|e l IH]; intros s; [reflexivity|]. cbn [map fold_left].
  change (defineAll (e :: l) s) with (defineAll l (defineEnum (fst e) (snd e) s)). rewrite IH. reflexivity.
Qed.
(** An enumeration with a qualified name goes into a scope of its own, not into the one
    current before; and every enumeration of the same namespace or class, defined any time
    later, goes into that same scope. *)
Theorem C111_same_scope : forall s cs l k keys others n m,
  Forall (fun c => atomic 0 c = true /\ c <> []) cs -> cs <> [] -> atomic 0 l = true -> atomic 0 k = true ->
  let name := repeat ":"%char n ++ qualified cs l in
  exists o, scope_of s name = OScope o /\
    scope_of (defineAll ((name, keys) :: others) s) (repeat ":"%char m ++ qualified cs k) = OScope o.
Proof.
  intros s cs l k keys others n m C NE L K name.
  destruct (C106_same (scopes s) cs l k (map fst others) n m C NE L K) as (o & A & B).
  exists o. unfold scope_of. rewrite scopes_all. cbn [map fst fold_left]. unfold name. rewrite A, B. now split.
Qed.
Print Assumptions C111_same_scope.
Example C111_same_scope_ex : Forall (fun c => atomic 0 c = true /\ c <> []) [bs "ns"] /\ atomic 0 (bs "A") = true /\
  scope_of start (bs "ns::A") = OScope 0 /\
  scope_of (defineAll [(bs "ns::A", []); (bs "other::B", [])] start) (bs "ns::B") = OScope 0.
Proof. split; [repeat constructor; discriminate|]. split; [reflexivity|]. split; vm_compute; reflexivity. Qed.
(** Without a qualified name it goes into the scope current before. *)
Theorem C111_top_scope : forall s l n, atomic 0 l = true -> scope_of s (repeat ":"%char n ++ l) = OTop.
Proof.
  intros s l n L. unfold scope_of, entered.
  change l with (qualified [] l). rewrite (C106_name n [] l (Forall_nil _) L). reflexivity.
Qed.
Print Assumptions C111_top_scope.
Example C111_top_scope_ex : atomic 0 (bs "A") = true /\ scope_of start (bs "::A") = OTop.
Proof. split; vm_compute; reflexivity. Qed.


(** ** C73: a structure without name in a class *)
(** It is reported as an error, which the exit status of the generator tells, and nothing is
    recorded for it. *)
Theorem C73_nameless_error : forall pc pre targs l g t2 t1 t m k,
  t = bs "class" \/ t = bs "struct" -> ClassParse_Model.idt k = false ->
  exists r g' i', ClassParse_Model.t_class pc pre targs l g (Parse_Model.Inp t2 t1 t (k :: m)) = ClassParse_Model.COk r g' i' /\
    ClassParse_Model.g_err g' = true /\ ClassParse_Model.g_actions g' = ClassParse_Model.g_actions g.
Proof.
  intros pc pre targs l g t2 t1 t m k T K. unfold ClassParse_Model.t_class, ClassParse_Model.cbind, ClassParse_Model.get.
  cbn [Parse_Model.tk].
  assert (X : (Parse_Model.teq t "class" || Parse_Model.teq t "struct")%bool = true) by (destruct T; subst t; reflexivity).
  rewrite X. unfold ClassParse_Model.nxt, ClassParse_Model.lift, Parse_Model.next. cbn [Parse_Model.more Parse_Model.tk Parse_Model.tk1 Parse_Model.tk2].
  rewrite K. unfold ClassParse_Model.when, ClassParse_Model.upd, ClassParse_Model.put, ClassParse_Model.cret.
  destruct (negb (ClassParse_Model.l_priv l) && negb (ClassParse_Model.l_templ l))%bool, (negb (beq targs []));
    do 3 eexists; (split; [reflexivity|split; reflexivity]).
Qed.
Print Assumptions C73_nameless_error.
Example C73_nameless_error_ex : ClassParse_Model.idt (bs "{") = false.
Proof. reflexivity. Qed.

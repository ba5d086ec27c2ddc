(** * Further statements about functions modelled before *)
From Verif Require Import Base Dec Desc_Model Desc_Props JavaSig_Model JavaSig_Props Jni_Model Jni_Props.

(** ** C99 *)
(** The name of a native method is the last component of the name of the functor. *)
Theorem C99_last_component : forall s, (~ In dot s -> after_dot s = s) /\ forall h t, ~ In dot t -> after_dot (h ++ [dot] ++ t) = t.
Proof.
  assert (E : forall s, after_dot s = tail s) by (intro s; unfold after_dot, tail; destruct (rfind dot s); reflexivity).
  intro s. rewrite E. split; [apply C34_nodot_tail|]. intros h t N. rewrite E. apply C34_unique. exact N.
Qed.
Print Assumptions C99_last_component.
Example C99_last_component_ex : ~ In dot (bs "get") /\ after_dot (bs "a.get") = bs "get".
Proof. split; [cbn; intuition discriminate|vm_compute; reflexivity]. Qed.
(** An exception of the C++ function becomes a Java exception; a value is returned after it exactly if
    the function has a result. *)
Theorem C99_exception : forall cls nm args r, exists pre,
  add_functor cls nm (descriptor args r) = Some (pre ++ bs "  catch (std::exception& ex)" ++ nl ++ bs "  {" ++ nl
    ++ bs "   env->ThrowNew(env->FindClass(" ++ dq ++ bs "java/lang/Throwable" ++ dq ++ bs "),ex.what());" ++ nl
    ++ (if list_eq_dec ascii_dec (jni_type r) (bs "void") then [] else bs "   return " ++ jni_type r ++ bs "(); //never executed, but shuts -Werror up" ++ nl)
    ++ bs "  }" ++ nl ++ bs "}" ++ nl ++ nl).
Proof.
  intros cls nm args r. unfold add_functor. rewrite C68_arglist, removelast_last, last_last.
  assert (PL : forall (a x q : list ascii), (exists p, x = p ++ q) -> exists p, a ++ x = p ++ q) by (intros a x q [p ->]; exists (a ++ p); now rewrite app_assoc).
  match goal with |- exists pre, Some ?x = Some (pre ++ ?q) => assert (X : exists p, x = p ++ q) end.
  { repeat first [match goal with |- exists p, ?x = p ++ ?x => exists []; exact eq_refl end | apply PL]. }
  destruct X as [p X]. exists p. now rewrite X.
Qed.
Print Assumptions C99_exception.

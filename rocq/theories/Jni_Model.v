(** * Model of the program that writes Java classes (/repo/java/compileClass.cc 86-200)

    [write_JNI] produces a class file and a C++ file for each registered object.
    Simplifications: the class is described by its members as javaClass_base.h 300-320 and 366-392 see
    them (member functions and data members of simple type, whose descriptors start with the name
    of the class, java/JNIEx.h 25). *)
From Verif Require Import Base Dec Desc_Model Java_Model JavaSig_Model.

(** ** the class file *)
Definition set_pool (p : list cp_info) (c : class_file) : class_file :=
  Cf (magic c) (minor_version c) (major_version c) p (cflags c) (this_class c) (super_class c)
     (interfaces c) (fields c) (methods c) (attributes c).
Definition push (e : cp_info) (c : class_file) : class_file := set_pool (constant_pool c ++ [e]) c.
Definition next (c : class_file) : N := len (constant_pool c).    (* constant_pool.size() *)
Definition set_super (v : N) (c : class_file) : class_file :=
  Cf (magic c) (minor_version c) (major_version c) (constant_pool c) (cflags c) (this_class c) v
     (interfaces c) (fields c) (methods c) (attributes c).
Definition set_this (v : N) (c : class_file) : class_file :=
  Cf (magic c) (minor_version c) (major_version c) (constant_pool c) (cflags c) v (super_class c)
     (interfaces c) (fields c) (methods c) (attributes c).
Definition set_methods (f : N) (ms : list member_info) (c : class_file) : class_file :=
  Cf (magic c) (minor_version c) (major_version c) (constant_pool c) f (this_class c) (super_class c)
     (interfaces c) (fields c) ms (attributes c).
(** [makeNative], javaClass.h 732-737; JVM_ACC_PUBLIC = 1, JVM_ACC_NATIVE = 0x100 *)
Definition make_native (c : class_file) : class_file :=
  set_methods 1 (map (fun m => Mi 257 (name_index m) (descriptor_index m) (mattributes m)) (methods c)) c.
(** [methods.back()] changed *)
Definition on_last {A} (f : A -> A) (l : list A) : list A :=
  match rev l with [] => [] | x :: r => rev r ++ [f x] end.
(** an entry for a class followed by its name, compileClass.cc 150-152 and 156-157 *)
Definition push_class (name : list ascii) (c : class_file) : class_file :=
  push (Cp 1 (PStr name)) (push (Cp 7 (PU2 (to_u2 (next c + 1)))) c).
(** [constant_pool[1].set(...)] *)
Definition set_nth1 (e : cp_info) (p : list cp_info) : list cp_info :=
  match p with a :: _ :: r => a :: e :: r | _ => p end.
(** compileClass.cc 182-183 *)
Definition code : list ascii := map ascii_of_N
  [0;1;0;1;0;0;0;5;42;183;0;1;177;0;0;0; 1;0;7;0;0;0;6;0;1;0;0;0;1]%N.

(** super_class and its entries, 149-152 *)
Definition add_super (c : class_file) : class_file :=
  push_class (bs "CppObject") (set_super (to_u2 (next c)) c).
(** this_class and its entries, 154-157 *)
Definition add_this (name : list ascii) (c : class_file) : class_file :=
  push_class name (set_this (to_u2 (next c)) c).
(** the default constructor, 162-163 *)
Definition add_ctor (c : class_file) : class_file :=
  let c := add_method (bs "<init>") (bs "()V") c in
  set_methods (cflags c) (on_last (fun m => Mi 1 (name_index m) (descriptor_index m) (mattributes m)) (methods c)) c.
(** its name and type, and the reference to the constructor of the super class, 165-172 *)
Definition add_ctor_ref (c : class_file) : class_file :=
  let c := push (Cp 12 (PNT (to_u2 (next c - 2)) (to_u2 (next c - 1)))) c in
  set_pool (set_nth1 (Cp 10 (PRef (super_class c) (to_u2 (next c - 1)))) (constant_pool c)) c.
(** the byte code of the constructor, 175-184 *)
Definition add_code (c : class_file) : class_file :=
  let a := At (to_u2 (next c)) code in
  let c := push (Cp 1 (PStr (bs "Code"))) c in
  set_methods (cflags c) (on_last (fun m => Mi (access_flags m) (name_index m) (descriptor_index m) (mattributes m ++ [a])) (methods c)) c.
(** [write_JNI] 129-188 for the methods [ms] that [exportClass] adds *)
Definition write_class (name : list ascii) (ms : list (list ascii * list ascii)) : class_file :=
  add_code (add_ctor_ref (add_ctor (make_native (add_this name (add_super
    (add_method (bs "auto") (bs "()V")
      (fold_left (fun c nd => add_method (fst nd) (snd nd) c) ms (push cp0 class0)))))))).

(** ** the C++ file *)
Definition nl : list ascii := [ascii_of_N 10].
Definition dq : list ascii := [ascii_of_N 34].
(** [name.substr(name.rfind(".")+1)]; npos+1 is 0 *)
Definition after_dot (s : list ascii) : list ascii :=
  match rfind dot s with None => s | Some i => skipn (S i) s end.
Definition numbered {A B} (f : N -> A -> list B) (l : list A) : list B :=
  concat (map (fun p => f (N.of_nat (fst p)) (snd p)) (combine (seq 0 (length l)) l)).
(** [add_functor] 94-126; [None]: sig_error, or beyond the end of the signature *)
Definition add_functor (cls name sig : list ascii) : option (list ascii) :=
  let nm := after_dot name in
  match jni_arglist sig with
  | SOk ts =>
      let args := removelast ts in
      let r := last ts [] in
      Some (bs "extern " ++ dq ++ bs "C" ++ dq ++ bs " " ++ r ++ bs " Java_" ++ cls ++ bs "_" ++ nm ++ bs "(JNIEnv* env, jobject jthis"
        ++ numbered (fun i t => bs ", " ++ t ++ bs " a" ++ dec i) args ++ bs ")" ++ nl
        ++ bs "{" ++ nl ++ bs "  try" ++ nl ++ bs "  {" ++ bs "    std::string this_=cppObject(env,jthis);" ++ nl
        ++ bs "    static Functional_ptr f=method_registry[this_+" ++ dq ++ bs "." ++ nm ++ dq ++ bs "];" ++ nl
        ++ bs "    ArgVector args(" ++ dec (len args) ++ bs ");" ++ nl
        ++ numbered (fun i t => bs "    args[" ++ dec i ++ bs "]=Arg(env,a" ++ dec i ++ bs ");" ++ nl) args
        ++ bs "    RetVal ret;" ++ nl ++ bs "    (*f)(ret,args);" ++ nl
        ++ (if list_eq_dec ascii_dec r (bs "void") then [] else bs "    return ret->get_" ++ r ++ bs "(env);" ++ nl)
        ++ bs "  }" ++ nl ++ bs "  catch (std::exception& ex)" ++ nl ++ bs "  {" ++ nl
        ++ bs "   env->ThrowNew(env->FindClass(" ++ dq ++ bs "java/lang/Throwable" ++ dq ++ bs "),ex.what());" ++ nl
        ++ (if list_eq_dec ascii_dec r (bs "void") then [] else bs "   return " ++ r ++ bs "(); //never executed, but shuts -Werror up" ++ nl)
        ++ bs "  }" ++ nl ++ bs "}" ++ nl ++ nl)
  | _ => None
  end.

(** members: a member function or a data member, with the descriptor below the object *)
Inductive member := MFun (x : list ascii) (args : list jty) (ret : jty) | MData (x : list ascii) (t : jty).
(** javaClass_base.h 300-320, 366-392: the methods, and the functors with their signatures *)
Definition methods_of (m : member) (desc : list ascii -> list ascii) : list (list ascii * list ascii) :=
  match m with
  | MFun x args r => [(after_dot (desc x), descriptor args r)]
  | MData x t => member_methods (desc x) t
  end.
Definition functors_of (m : member) (desc : list ascii -> list ascii) : list (list ascii * list ascii) :=
  match m with
  | MFun x args r => [(desc x, descriptor args r)]
  | MData x t => combine (member_functors (desc x)) [descriptor [t] t; descriptor [] t; descriptor [t] JVoid]
  end.
(** members of the object called [name], JNIEx.h 25 *)
Definition below (name x : list ascii) : list ascii := name ++ dot :: x.
Definition write_methods (name : list ascii) (ms : list member) : list (list ascii * list ascii) :=
  flat_map (fun m => methods_of m (below name)) ms.
Definition write_functors (name : list ascii) (ms : list member) : list (list ascii * list ascii) :=
  flat_map (fun m => functors_of m (below name)) ms.
(** the texts written to the C++ file, 135-147 *)
Definition write_cpp (name : list ascii) (ms : list member) : list (option (list ascii)) :=
  [Some (bs "#include " ++ dq ++ name ++ bs ".h" ++ dq ++ nl);
   Some (bs "#include " ++ dq ++ bs "JNIEx.h" ++ dq ++ nl ++ bs "using namespace classdesc;" ++ nl);
   Some (bs "#include " ++ dq ++ bs "classdesc_epilogue.h" ++ dq ++ nl)]
  ++ map (fun f => add_functor name (fst f) (snd f)) (write_functors name ms)
  ++ [Some (bs "extern " ++ dq ++ bs "C" ++ dq ++ bs " void Java_" ++ name ++ bs "_auto(JNIEnv *env, jobject obj)" ++ nl
            ++ bs "{registerCppObject<" ++ name ++ bs ">(env,obj);}")].

(** ** a call of a native method: 105-112.  The functor is a static local: it is looked up by the
    first call only.  [objs] are the C++ objects of the calls of one function, in order; the result is the
    object whose functor each call runs. *)
Fixpoint calls (bound : option (list ascii)) (objs : list (list ascii)) : list (list ascii) :=
  match objs with
  | [] => []
  | o :: r => let f := match bound with Some b => b | None => o end in f :: calls (Some f) r
  end.

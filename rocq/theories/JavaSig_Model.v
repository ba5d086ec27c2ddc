(** * Model of Java signatures (/repo/javaClassDescriptor.h, /repo/javaClass_base.h 366-392,
      /repo/java/compileClass.cc 37-86) *)
From Verif Require Import Base Desc_Model Java_Model.

(** the types with a [Descriptor] (javaClassDescriptor.h 28-67, LP64) *)
Inductive jty :=
| JVoid | JBool | JSChar | JUChar | JShort | JUShort | JInt | JUInt | JLong | JULong
| JFloat | JDouble | JString
| JConst (t : jty) | JRef (t : jty).
(** [Descriptor<T>::d()] *)
Fixpoint letter (t : jty) : list ascii :=
  match t with
  | JVoid => bs "V" | JBool => bs "Z" | JSChar | JUChar => bs "C"
  | JShort | JUShort => bs "S" | JInt | JUInt => bs "I" | JLong | JULong => bs "J"
  | JFloat => bs "F" | JDouble => bs "D" | JString => bs "Ljava/lang/String;"
  | JConst t | JRef t => letter t
  end.
(** [arg_desc<F,i>::d()]: recursion from the last argument backwards
    (javaClassDescriptor.h 69-88) *)
Fixpoint arg_desc (args : list jty) (i : nat) : list ascii :=
  match i with
  | O => []
  | S i' => arg_desc args i' ++ match nth_error args i' with Some t => letter t | None => [] end
  end.
(** [descriptor<M>()], javaClassDescriptor.h 95-101 *)
Definition descriptor (args : list jty) (ret : jty) : list ascii :=
  bs "(" ++ arg_desc args (length args) ++ bs ")" ++ letter ret.

(** outcome of [JNI_arglist]; [SUB]: the search for the next semicolon leaves the string *)
Inductive sres := SOk (l : list (list ascii)) | SThrow | SUB.
Definition scons (x : string) (r : sres) : sres :=
  match r with SOk l => SOk (bs x :: l) | r => r end.
(** rest of the string from the next semicolon on, that character included *)
Fixpoint to_semi (s : list ascii) : option (list ascii) :=
  match s with
  | [] => None
  | c :: s' => if ascii_dec c ";" then Some s else to_semi s'
  end.
Definition is_prefix (p s : list ascii) : bool :=
  if list_eq_dec ascii_dec (firstn (length p) s) p then true else false.
(** compileClass.cc 37-86.  [fuel] is the length of the string. *)
Fixpoint jni (fuel : nat) (s : list ascii) : sres :=
  match fuel with
  | O => SOk []
  | S fuel =>
    match s with
    | [] => SOk []
    | c :: s' =>
      match c with
      | "Z"%char => scons "jboolean" (jni fuel s')
      | "B"%char => scons "jbyte" (jni fuel s')
      | "C"%char => scons "jchar" (jni fuel s')
      | "S"%char => scons "jshort" (jni fuel s')
      | "I"%char => scons "jint" (jni fuel s')
      | "J"%char => scons "jlong" (jni fuel s')
      | "F"%char => scons "jfloat" (jni fuel s')
      | "D"%char => scons "jdouble" (jni fuel s')
      | "V"%char => scons "void" (jni fuel s')
      | "L"%char =>
        match to_semi s with
        | None => SUB
        | Some r => scons (if is_prefix (bs "Ljava/lang/String;") s then "jstring" else "jobject")
                          (jni fuel (tl r))
        end
      | "["%char =>
        (* [c++; switch ( *c )], then falls into the case of ')' *)
        match s' with
        | [] => SUB       (* reads the terminator, then steps over it *)
        | d :: s2 =>
          match d with
          | "Z"%char => scons "jbooleanArray" (jni fuel s2)
          | "B"%char => scons "jbyteArray" (jni fuel s2)
          | "C"%char => scons "jcharArray" (jni fuel s2)
          | "S"%char => scons "jshortArray" (jni fuel s2)
          | "I"%char => scons "jintArry" (jni fuel s2)
          | "J"%char => scons "jlongArray" (jni fuel s2)
          | "F"%char => scons "jfloatArray" (jni fuel s2)
          | "D"%char => scons "jdoubleArray" (jni fuel s2)
          | "L"%char => match to_semi s' with
                        | None => SUB
                        | Some r => scons "jobjectArray" (jni fuel (tl r))
                        end
          | _ => jni fuel s2
          end
        end
      | "("%char | ")"%char => jni fuel s'
      | _ => SThrow
      end
    end
  end.
Definition jni_arglist (s : list ascii) : sres := jni (length s) s.

(** [toupper] in the "C" locale *)
Definition upper (c : ascii) : ascii :=
  let n := N_of_ascii c in
  if ((97 <=? n) && (n <=? 122))%N then ascii_of_N (n - 32) else c.
(** [ivar_name[0]=toupper(ivar_name[0])]; for an empty name this stores the terminator
    over itself *)
Definition capital (s : list ascii) : list ascii :=
  match s with [] => [] | c :: s' => upper c :: s' end.
(** the methods and the functors added for a data member of type [t]
    (javaClass_base.h 366-392) *)
Definition member_names (desc : list ascii) : list ascii * list ascii :=
  match rfind dot desc with
  | None => (desc, [])
  | Some i => (skipn (S i) desc, firstn i desc)
  end.
Definition member_methods (desc : list ascii) (t : jty) : list (list ascii * list ascii) :=
  let ivar := fst (member_names desc) in
  let up := capital ivar in
  [(ivar, descriptor [t] t); (bs "get" ++ up, descriptor [] t); (bs "set" ++ up, descriptor [t] JVoid)].
Definition member_functors (desc : list ascii) : list (list ascii) :=
  let (ivar, cls) := member_names desc in
  let up := capital ivar in
  [desc; cls ++ bs ".get" ++ up; cls ++ bs ".set" ++ up].
(** members of an object one after the other, with [ClassFile::addMethod] *)
Definition java_class (members : list (list ascii * jty)) (c : class_file) : class_file :=
  fold_left (fun c m =>
    fold_left (fun c nd => add_method (fst nd) (snd nd) c) (member_methods (fst m) (snd m)) c)
    members c.

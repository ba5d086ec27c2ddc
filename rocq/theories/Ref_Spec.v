(** * Specification of the reference counting handles

    A store in which nothing is ever freed; a handle designates a location or nothing.
    Counting is done by looking at all handles. *)
From Verif Require Import Base Ref_Model.

(** number of live handles designating object [k] *)
Fixpoint refs (k : nat) (l : vars) : nat :=
  match l with
  | [] => 0
  | Live (Some j) :: l' => (if (j =? k)%nat then 1 else 0) + refs k l'
  | _ :: l' => refs k l'
  end%nat.

Section RefSpec.
Variable V : Type.
Variable dflt : V.
Record sst : Type := mk_ss { ss_store : list V; ss_vars : vars }.
Definition s_set v c (s : sst) := mk_ss (ss_store s) (set_cell v c (ss_vars s)).
Definition s_new v x (s : sst) :=
  mk_ss (ss_store s ++ [x]) (set_cell v (Live (Some (length (ss_store s)))) (ss_vars s)).
Definition s_get (k : nat) (s : sst) : robs V :=
  match nth_error (ss_store s) k with Some x => OVal V x | None => ONone V end.
Definition s_live (s : sst) v : option (option nat) :=
  match nth_error (ss_vars s) v with Some (Live p) => Some p | _ => None end.
Definition s_dead (s : sst) v : bool :=
  match nth_error (ss_vars s) v with Some Dead => true | _ => false end.

Definition sstep (op : rop V) (s : sst) : robs V * sst :=
  match op with
  | RDefault _ v => (ONone V, if s_dead s v then s_set v (Live None) s else s)
  | RCopy _ v w => (ONone V, match s_dead s v, s_live s w with
                             | true, Some p => s_set v (Live p) s | _, _ => s end)
  | RFrom _ v x => (ONone V, if s_dead s v then s_new v x s else s)
  | RAssign _ v w => (ONone V, match s_live s v, s_live s w with
                             | Some _, Some q => s_set v (Live q) s | _, _ => s end)
  | RAssignVal _ v x => (ONone V, match s_live s v with Some _ => s_new v x s | None => s end)
  | RAssignRef _ v w => (ONone V, match s_live s v, s_live s w with
       | Some _, Some (Some k) =>
           match nth_error (ss_store s) k with Some x => s_new v x s | None => s end
       | _, _ => s end)
  | RDestroy _ v => (ONone V, match s_live s v with Some _ => s_set v Dead s | None => s end)
  | RDeref _ v => match s_live s v with
                | Some None => (OVal V dflt, s_new v dflt s)
                | Some (Some k) => (s_get k s, s)
                | None => (ONone V, s) end
  | RWrite _ v x => (ONone V, match s_live s v with
                | Some None => s_new v x s
                | Some (Some k) => mk_ss (upd k x (ss_store s)) (ss_vars s)
                | None => s end)
  | RRead _ v => match s_live s v with Some (Some k) => (s_get k s, s) | _ => (ONone V, s) end
  | RNullify _ v => (ONone V, match s_live s v with Some _ => s_set v (Live None) s | None => s end)
  | RSwap _ v w => (ONone V, match s_live s v, s_live s w with
                | Some p, Some q => s_set v (Live q) (s_set w (Live p) s) | _, _ => s end)
  | RCount _ v => match s_live s v with
                | Some None => (ONum V 0, s)
                | Some (Some k) => (ONum V (Z.of_nat (refs k (ss_vars s))), s)
                | None => (ONone V, s) end
  | REqual _ v w => match s_live s v, s_live s w with
                | Some p, Some q => (OBool V (match p, q with
                     | Some a, Some b => (a =? b)%nat | None, None => true | _, _ => false end), s)
                | _, _ => (ONone V, s) end
  end.
Fixpoint srun (ops : list (rop V)) (s : sst) : list (robs V) * sst :=
  match ops with
  | [] => ([], s)
  | o :: ops' => let '(b, s1) := sstep o s in let '(bs, s2) := srun ops' s1 in (b :: bs, s2)
  end.
Definition sinit (n : nat) : sst := mk_ss [] (repeat Dead n).

(** the one hazard: [v = *v] *)
Definition no_self (op : rop V) : Prop :=
  match op with RAssignRef _ v w => v <> w | _ => True end.
End RefSpec.

(** PtrStoreRef: assignment only to handles that hold nothing *)
Definition assigns_null (op : pop) (s : pst) : Prop :=
  match op with
  | PAssign v w => cell_at (ps_vars s) v = Some (Live None)
  | _ => True
  end.
Fixpoint history_ok (ops : list pop) (s : pst) : Prop :=
  match ops with
  | [] => True
  | o :: ops' => assigns_null o s /\
      match pstep o s with Some s' => history_ok ops' s' | None => True end
  end.

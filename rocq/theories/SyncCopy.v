(** Several synchronized_memory_resource objects, which may be copies of each other.

    Sources: core/src/memory/synchronized_memory_resource.cpp lines 13-23 (constructors), 27-43
    (assignments), 45-57 (calls).  The upstream resource is copied, also by the moving
    functions (std::move of a std::reference_wrapper), but every object has a mutex of its own.

    Simplifications: the objects are made and assigned to before the threads start; the
    threads are those of Sync, without results. *)
From Verif Require Import Base.

Inductive made :=
| MNew (upstream : nat)       (* lines 13-15 *)
| MCopy (other : nat)         (* lines 21-23, and the move constructor, lines 17-19 *)
| MAssign (obj other : nat).  (* lines 27-43, both assignments *)

(** [m_upstream] of all objects; an operation on an object that does not exist is undefined. *)
Definition make1 (objs : list nat) (m : made) : outcome (list nat) :=
  match m with
  | MNew u => Ret (objs ++ [u])
  | MCopy o => match nth_error objs o with Some u => Ret (objs ++ [u]) | None => UB end
  | MAssign o o' =>
      match nth_error objs o, nth_error objs o' with
      | Some _, Some u => Ret (if Nat.eqb o o' then objs else upd objs o u)
      | _, _ => UB
      end
  end.
Fixpoint make (objs : list nat) (ms : list made) : outcome (list nat) :=
  match ms with
  | [] => Ret objs
  | m :: ms' => let* objs' := make1 objs m in make objs' ms'
  end.

(** Thread, object, number of the call and stage as in Sync: 0 invoked, 1 mutex locked, 2 the
    call of the upstream resource begins, 3 it ends, 4 mutex unlocked, 5 return. *)
Record slabel := mkSL { sl_t : nat; sl_o : nat; sl_k : nat; sl_g : nat }.
Record sthread := mkST { st_o : nat; st_k : nat; st_phase : nat }.
Record sstate := mkSS { locks : nat -> option nat; sth : nat -> sthread }.
Definition setf {A} (f : nat -> A) (i : nat) (x : A) : nat -> A := fun j => if Nat.eqb j i then x else f j.

Inductive sstep (n : nat) : sstate -> slabel -> sstate -> Prop :=
| ss_inv s t o : (o < n)%nat -> st_phase (sth s t) = 0%nat ->
    sstep n s (mkSL t o (st_k (sth s t)) 0) (mkSS (locks s) (setf (sth s) t (mkST o (st_k (sth s t)) 1)))
| ss_lock s t : st_phase (sth s t) = 1%nat -> locks s (st_o (sth s t)) = None ->
    sstep n s (mkSL t (st_o (sth s t)) (st_k (sth s t)) 1)
      (mkSS (setf (locks s) (st_o (sth s t)) (Some t)) (setf (sth s) t (mkST (st_o (sth s t)) (st_k (sth s t)) 2)))
| ss_begin s t : st_phase (sth s t) = 2%nat ->
    sstep n s (mkSL t (st_o (sth s t)) (st_k (sth s t)) 2)
      (mkSS (locks s) (setf (sth s) t (mkST (st_o (sth s t)) (st_k (sth s t)) 3)))
| ss_end s t : st_phase (sth s t) = 3%nat ->
    sstep n s (mkSL t (st_o (sth s t)) (st_k (sth s t)) 3)
      (mkSS (locks s) (setf (sth s) t (mkST (st_o (sth s t)) (st_k (sth s t)) 4)))
| ss_unlock s t : st_phase (sth s t) = 4%nat ->
    sstep n s (mkSL t (st_o (sth s t)) (st_k (sth s t)) 4)
      (mkSS (setf (locks s) (st_o (sth s t)) None) (setf (sth s) t (mkST (st_o (sth s t)) (st_k (sth s t)) 5)))
| ss_ret s t : st_phase (sth s t) = 5%nat ->
    sstep n s (mkSL t (st_o (sth s t)) (st_k (sth s t)) 5)
      (mkSS (locks s) (setf (sth s) t (mkST (st_o (sth s t)) (S (st_k (sth s t))) 0))).

Definition sinit : sstate := mkSS (fun _ => None) (fun _ => mkST 0 0 0).

(** Executions with [n] objects; the trace is oldest first. *)
Inductive sexec (n : nat) : list slabel -> sstate -> Prop :=
| se_nil : sexec n [] sinit
| se_snoc tr s l s' : sexec n tr s -> sstep n s l s' -> sexec n (tr ++ [l]) s'.

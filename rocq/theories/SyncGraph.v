(** Threads that use a graph of memory resources with synchronized resources in any places.

    Sources: core/src/memory/synchronized_memory_resource.cpp lines 45-57 (do_allocate and do_deallocate hold
    a std::lock_guard of m_mutex while they call the upstream resource); the other memory resources
    of core/src/memory call their upstream resources and hold no mutex (for which resource calls
    which ones see Stack.v and Graph.v).

    A call of a resource is the event [Enter], followed by the calls that it makes to its
    upstream resources, followed by [Exit] (by return or by an exception: the lock_guard unlocks
    in both cases).  What the resources do with memory is left out here: which calls a resource makes
    to its upstream resources is arbitrary.

    Simplifications: a thread is the sequence of all its calls, nested ones included; std::mutex is not
    recursive and locking it twice in a thread blocks for ever (undefined in C++). *)
From Verif Require Import Base.
From Coq Require Import List Bool Arith.
Import ListNotations.

Inductive act := Enter (n : nat) | Exit.
(** A thread: the resources whose functions it is in, the innermost one first, and what it will do. *)
Record thread := mkThread { t_stack : list nat; t_rest : list act }.

Section Graph.
  (** Which resources are synchronized ones, and the upstream resources of each. *)
  Variable sync : nat -> bool.
  Variable ups : nat -> list nat.
  (** Which resources the thread number [i] calls itself. *)
  Variable entries : nat -> list nat.

  (** The sequences of calls that a thread can make: a resource calls only its upstream resources. *)
  Fixpoint wf (start : list nat) (stack : list nat) (l : list act) : bool :=
    match l, stack with
    | [], [] => true
    | [], _ :: _ => false
    | Enter n :: l', [] => existsb (Nat.eqb n) start && wf start [n] l'
    | Enter n :: l', m :: _ => existsb (Nat.eqb n) (ups m) && wf start (n :: stack) l'
    | Exit :: _, [] => false
    | Exit :: l', _ :: stack' => wf start stack' l'
    end.

  (** Some thread is inside of resource [n]. *)
  Definition inside_any (ts : list thread) (n : nat) : bool := existsb (fun t => existsb (Nat.eqb n) (t_stack t)) ts.

  (** One event of thread [i]; entering a synchronized resource locks its mutex, for which no thread may be
      inside of it. *)
  Definition sgstep (ts : list thread) (i : nat) : option (list thread) :=
    match nth_error ts i with
    | Some (mkThread st (Enter n :: l)) =>
        if sync n && inside_any ts n then None else Some (upd ts i (mkThread (n :: st) l))
    | Some (mkThread (_ :: st) (Exit :: l)) => Some (upd ts i (mkThread st l))
    | _ => None
    end.
  (** A schedule: the numbers of the threads that take the steps. *)
  Fixpoint sgrun (ts : list thread) (sched : list nat) : option (list thread) :=
    match sched with
    | [] => Some ts
    | i :: s' => match sgstep ts i with Some ts' => sgrun ts' s' | None => None end
    end.
  (** The threads at the start, with what each of them will do. *)
  Definition sginit (progs : list (list act)) : list thread := map (mkThread []) progs.
  Definition sgok (progs : list (list act)) : Prop :=
    forall i l, nth_error progs i = Some l -> wf (entries i) [] l = true.

  (** The way into a resource, the innermost resource first. *)
  Fixpoint path (start : list nat) (l : list nat) : Prop :=
    match l with
    | [] => True
    | n :: l' => match l' with [] => In n start | m :: _ => In n (ups m) end /\ path start l'
    end.

  (** The events of a run at resource [m]: the thread, and whether it enters. *)
  Definition event_of (ts : list thread) (m i : nat) : list (nat * bool) :=
    match nth_error ts i with
    | Some t =>
        match t_rest t with
        | Enter n :: _ => if Nat.eqb n m then [(i, true)] else []
        | Exit :: _ => match t_stack t with n :: _ => if Nat.eqb n m then [(i, false)] else [] | [] => [] end
        | [] => []
        end
    | None => []
    end.
  Fixpoint events (m : nat) (ts : list thread) (sched : list nat) : list (nat * bool) :=
    match sched with
    | [] => []
    | i :: s' => match sgstep ts i with Some ts' => event_of ts m i ++ events m ts' s' | None => [] end
    end.
  (** One call after the other; [cur]: the thread that is inside at the beginning. *)
  Fixpoint one_by_one (cur : option nat) (l : list (nat * bool)) : bool :=
    match l, cur with
    | [], _ => true
    | (i, true) :: l', None => one_by_one (Some i) l'
    | (i, false) :: l', Some j => Nat.eqb i j && one_by_one None l'
    | _, _ => false
    end.
End Graph.

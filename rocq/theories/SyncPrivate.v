(** Threads with memory resources of their own, on top of a stack of memory resources that
    they share through a synchronized_memory_resource.

    Sources: core/src/memory/synchronized_memory_resource.cpp lines 45-57 (model: Sync), on top
    of the resources of Stack, and below other resources of Stack, which belong to one thread
    each.

    Simplifications: those of Sync, Stack and SyncStack. *)
From Verif Require Import Base Stack Sync SyncStack.

(** The calls that the thread [t] made to the synchronized resource, newest first:
    allocations when they have returned, deallocations when they are invoked. *)
Definition thread_call (t : nat) (c : list uevent) (l : label scall sres) : list uevent :=
  if Nat.eqb (lt l) t then
    match lg l, lc l, lr l with
    | 5%nat, SAlloc size align, Some (RAlloc (Ret p)) => UAlloc size align (Some p) :: c
    | 5%nat, SAlloc size align, _ => UAlloc size align None :: c
    | 0%nat, SFree b, _ => UFree (bptr b) (bsize b) (balign b) :: c
    | _, _, _ => c
    end
  else c.
Definition thread_calls (t : nat) (tr : list (label scall sres)) : list uevent :=
  fold_left (thread_call t) tr [].
